{"id": "C01", "title": "Shoebox verification rejects every box outside the grid", "statement": "CornerPointChopper::verifyInscribedShoebox returns normally exactly for requests with imin>=0, imax<=nx, ilen<=nx (and likewise j), zmin>=the smallest and zmax<=the largest ZCORN value and zlen<=their difference; every other request raises an error. It does not check imin<imax: an inverted box is accepted and chop then returns unset depths and an unusable cell map (finding).", "quantifier": "every grid size, every integer index box and every real z box", "why_tests_cant": "the acceptance set is a conjunction over unbounded integers and reals; tests sample a few boxes", "anchors": ["opm/upscaling/CornerpointChopper.hpp:verifyInscribedShoebox"]}
{"id": "C02", "title": "Chopped cell takes its properties from the right source cell", "statement": "After chop(imin,imax,jmin,jmax,zmin,zmax,...), output cell (i,j,k) of every per-cell array (ACTNUM, PORO, PERMX.., SATNUM, ...) holds the value of input cell (i+imin, j+jmin, k+kmin), where kmin is the first retained layer.", "quantifier": "every grid, every accepted index box, every z box that retains at least one layer, every per-cell array", "why_tests_cant": "the claim is a bijection over all cells of grids of any size", "anchors": ["opm/upscaling/CornerpointChopper.hpp:chop", "opm/upscaling/CornerpointChopper.hpp:filterField"]}
{"id": "C03", "title": "Chopping never reads or writes outside an array and leaves no unset entry", "statement": "For every box accepted by the verification with imin<imax and jmin<jmax, all COORD and ZCORN reads of chop are in bounds, all writes are in bounds, and every slot of the new COORD, ZCORN and cell map is written, so the 1e100 fill value never survives.", "quantifier": "every grid and accepted box", "why_tests_cant": "memory safety over all sizes cannot be sampled", "anchors": ["opm/upscaling/CornerpointChopper.hpp:chop"]}
{"id": "C04", "title": "Chopped depths are the clamped source depths", "statement": "Every output ZCORN entry equals the source corner depth clamped to [zmin,zmax] of the clipped box, minus the clipped zmin when resettoorigin is set; hence lies in [zmin,zmax] (or [0,zmax-zmin]); corners inside the box are unchanged up to the shift.", "quantifier": "every grid, box and corner", "why_tests_cant": "universal over corners and real depths", "anchors": ["opm/upscaling/CornerpointChopper.hpp:chop"]}
{"id": "C05", "title": "Layer selection keeps every layer that meets the box", "statement": "chop retains a contiguous range of layers [kmin,kmax); every layer that has a retained-column corner strictly inside the z box, or spans it, is in the range.", "quantifier": "every ZCORN array and box", "why_tests_cant": "depends on arbitrary corner depths, including non-monotone and faulted columns", "anchors": ["opm/upscaling/CornerpointChopper.hpp:chop"]}
{"id": "C06", "title": "Chopped COORD pillars end at the clipped depth only without clipping", "statement": "With resettoorigin the new pillars run from 0 to the length of the depth interval used for ZCORN when the requested box needs no clipping to the grid; when it is clipped the pillar end depth is the length of the unclipped request and disagrees with ZCORN (finding: computed before clipping).", "quantifier": "every grid and box with zmax beyond the selected columns", "why_tests_cant": "needs a specific combination of clip order; the universal claim is what a user relies on", "anchors": ["opm/upscaling/CornerpointChopper.hpp:chop"]}
{"id": "C07", "title": "Mesh colouring visits every active cell exactly once", "statement": "For any logical grid, activity pattern and thread count, the union over colours and threads of the element groups handed to the assembler contains each active cell exactly once and nothing else.", "quantifier": "every logical Cartesian size with each dimension >=1, every set of active cells, every positive thread count", "why_tests_cant": "the property ranges over all grid sizes and thread counts", "anchors": ["opm/elasticity/meshcolorizer.cpp:MeshColorizer::calcGroups", "opm/elasticity/meshcolorizer.hpp:getStripDirection"]}
{"id": "C08", "title": "Threads working on the same colour never touch a common node", "statement": "Two cells in the same colour but in different thread groups never share a grid node, even when nodes on opposite sides are identified by periodic constraints, so concurrent stiffness updates cannot race.", "quantifier": "every grid size, set of active cells and thread count", "why_tests_cant": "a data race is schedule-dependent; absence must hold for every pair of cells", "anchors": ["opm/elasticity/meshcolorizer.cpp:MeshColorizer::calcGroups", "opm/elasticity/meshcolorizer.hpp:getStripDirection"]}
{"id": "C09", "title": "Strip construction terminates with legal strips", "statement": "The strip loop terminates for every element and thread count, yields exactly 2*threads' strips (or one), all start offsets are ordered, sizes are non-negative and add up to the number of elements in the strip direction.", "quantifier": "every element count >=1 and thread count >=1", "why_tests_cant": "termination for all inputs", "anchors": ["opm/elasticity/meshcolorizer.cpp:MeshColorizer::calcGroups", "opm/elasticity/meshcolorizer.hpp:getStripDirection"]}
{"id": "C10", "title": "Progress logger chunks partition the work", "statement": "LoggerHelper(max,chunks,..).group(i) for i=0..chunks-1 are consecutive, disjoint, cover [0,max) and differ in length by at most one.", "quantifier": "every max>=0 and chunks>=1", "why_tests_cant": "all sizes", "anchors": ["opm/elasticity/logutils.hpp:LoggerHelper"]}
{"id": "C11", "title": "Every boundary face is assigned exactly one side of the bounding box, or the call fails", "statement": "findPeriodicPartners either reports an error (largest boundary id differs from the number of boundary faces, or some face is on no side) or assigns every boundary face the first side number in 0..5 such that the face centroid lies within the tolerance of that side of the bounding box; side areas are the sums of the areas of the faces assigned to the side.", "quantifier": "every set of boundary faces (centroids, areas) and tolerance", "why_tests_cant": "all geometries", "anchors": ["opm/porsol/common/BoundaryPeriodicity.hpp:findPeriodicPartners"]}
{"id": "C12", "title": "Periodic pairing is symmetric", "statement": "A face reported as the partner of b lies on the opposite side with equal area and in-plane position up to tolerance; when every face has at most one geometric candidate the pairing is symmetric. Without unique candidates symmetry fails, because a face that is already paired can be paired again (refuted by a three-face witness).", "quantifier": "every face list; every search window", "why_tests_cant": "depends on ties and sort order", "anchors": ["opm/porsol/common/BoundaryPeriodicity.cpp:match", "opm/porsol/common/BoundaryPeriodicity.hpp:findPeriodicPartners"]}
{"id": "C13", "title": "A geometric partner is always found if one exists", "statement": "After the call every face on a periodic side that has a geometrically matching face on the opposite side has a partner.", "quantifier": "every face list in any order (the windowed search must not lose candidates)", "why_tests_cant": "window logic is only exercised for >10 faces with adverse ordering", "anchors": ["opm/porsol/common/BoundaryPeriodicity.cpp:match", "opm/porsol/common/BoundaryPeriodicity.hpp:findPeriodicPartners"]}
{"id": "C14", "title": "Boundary-condition tables always have one entry per boundary id", "statement": "After any sequence of clear/resize/setter calls on BasicBoundaryConditions all per-boundary tables have the same size, and every entry never set explicitly is no-flow for flow and unit inflow saturation for transport; setPeriodicPartners keeps the partner table symmetric for distinct pairs.", "quantifier": "every operation history", "why_tests_cant": "histories are unbounded", "anchors": ["opm/porsol/common/BoundaryConditions.hpp:BasicBoundaryConditions", "opm/porsol/common/BoundaryConditions.hpp:PeriodicConditionHandler"]}
{"id": "C15", "title": "Periodic setup prescribes exactly the requested pressure drop", "statement": "setupUpscalingConditions with the periodic type puts a pressure difference +pdrop on the upstream side, -pdrop on the downstream side and 0 on the others, in each of the three directions, so the two sides of a periodic pair always carry opposite jumps; any boundary type other than 0,1,2 is rejected.", "quantifier": "every direction, pressure drop and type code", "why_tests_cant": "all parameter combinations", "anchors": ["opm/porsol/common/setupBoundaryConditions.hpp:setupUpscalingConditions", "opm/porsol/common/PeriodicHelpers.hpp:createPeriodic"]}
{"id": "C16", "title": "Fixed setup prescribes pdrop on one side, zero on the opposite side and no flow elsewhere", "statement": "With the fixed type, after setupUpscalingConditions in direction d exactly the side 2d is Dirichlet pdrop, side 2d+1 Dirichlet 0, and the other four are no-flow, whatever conditions were set before.", "quantifier": "every previous state, direction and drop", "why_tests_cant": "history independence", "anchors": ["opm/porsol/common/setupBoundaryConditions.hpp:setupUpscalingConditions"]}
{"id": "C17", "title": "Linear setup interpolates the pressure between the two ends", "statement": "With the linear type every boundary face gets Dirichlet pressure pdrop*(1-(x-xmin)/(xmax-xmin)): pdrop at the low end, 0 at the high end and in [0,pdrop] in between.", "quantifier": "every face set and drop", "why_tests_cant": "all geometries", "anchors": ["opm/porsol/common/PeriodicHelpers.hpp:createLinear"]}
{"id": "C18", "title": "Linear setup keeps the partner table of the previous setup", "statement": "setupUpscalingConditions with the linear type only resizes the partner table: every partner stored before for a boundary id in range is still stored afterwards. So the expected claim that no boundary id has a periodic partner after switching from periodic to linear conditions on the same object is false, and a two-face witness refutes it.", "quantifier": "every previous state", "why_tests_cant": "history property", "anchors": ["opm/porsol/common/PeriodicHelpers.hpp:createLinear", "opm/porsol/common/BoundaryConditions.hpp:PeriodicConditionHandler"]}
{"id": "C19", "title": "Prescribed side flux is distributed without loss", "statement": "storeFlowCond gives each face of a Neumann side the share flux*area/side_area; the shares add up to the prescribed total flux whenever side_area is the sum of the face areas and non-zero.", "quantifier": "every number of faces and areas", "why_tests_cant": "sum over arbitrary lists", "anchors": ["opm/porsol/common/PeriodicHelpers.hpp:storeFlowCond"]}
{"id": "C20", "title": "Boundary condition type can only be changed between compatible kinds", "statement": "setBoundaryConditionType succeeds if the old and new type are both periodic or both non-periodic, otherwise it fails and leaves the type unchanged; so after any sequence of calls an upscaler initialised as periodic is still periodic.", "quantifier": "every call history", "why_tests_cant": "history", "anchors": ["opm/upscaling/UpscalerBase_impl.hpp:setBoundaryConditionType"]}
{"id": "C21", "title": "Upscaled porosity is a volume-weighted mean", "statement": "upscalePorosity returns sum(volume*poro)/sum(volume); with positive volumes it lies between the smallest and largest cell porosity and equals the common value for homogeneous input.", "quantifier": "every grid with positive cell volumes", "why_tests_cant": "all cell lists", "anchors": ["opm/upscaling/UpscalerBase_impl.hpp:upscalePorosity"]}
{"id": "C22", "title": "Net porosity and net-to-gross are consistent", "statement": "upscaleNTG*upscaleNetPorosity*total volume equals the net pore volume; net porosity is 0 (not NaN) when there is no net volume; both lie within the range of the cell values.", "quantifier": "every grid", "why_tests_cant": "all cell lists", "anchors": ["opm/upscaling/UpscalerBase_impl.hpp:upscaleNTG", "opm/upscaling/UpscalerBase_impl.hpp:upscaleNetPorosity"]}
{"id": "C23", "title": "Critical saturations are pore-volume-weighted means", "statement": "upscaleSWCR and upscaleSOWCR return the (net) pore-volume-weighted means of the cell values and lie within their range.", "quantifier": "every grid", "why_tests_cant": "all cell lists", "anchors": ["opm/upscaling/UpscalerBase_impl.hpp:upscaleSWCR", "opm/upscaling/UpscalerBase_impl.hpp:upscaleSOWCR"]}
{"id": "C24", "title": "Upscaled permeability reproduces a homogeneous medium", "statement": "For every box domain and every decomposition of its boundary into faces, when the flow solver returns the uniform Darcy flow of a homogeneous medium with permeability K, upscaleEffectivePerm succeeds and returns K for linear and periodic conditions; for fixed conditions it returns the diagonal of K with zero off-diagonal entries.", "quantifier": "every box, face decomposition, permeability tensor and condition kind", "why_tests_cant": "all face lists", "anchors": ["opm/upscaling/UpscalerBase_impl.hpp:upscaleEffectivePerm", "opm/upscaling/UpscalerBase_impl.hpp:computeAverageVelocity", "opm/upscaling/UpscalerBase_impl.hpp:computeDelta"]}
{"id": "C25", "title": "Average velocity counts each inflow and outflow face once", "statement": "The average velocity in direction d is the mean of two area averages of the outward flux times normal component: one over exactly the boundary faces whose canonical side code is 2d+1, one over exactly those with code 2d+2, every such face counted once and interior faces never; it is not finite exactly when one of the areas is zero. Finding: a boundary face whose canonical code is 0 (no side) is also counted in direction 0, because the side pair is computed with truncating division.", "quantifier": "every canonical id table", "why_tests_cant": "all tables", "anchors": ["opm/upscaling/UpscalerBase_impl.hpp:computeAverageVelocity"]}
{"id": "C26", "title": "Corner depth addressing is in range and distinct", "statement": "The eight ZCORN indices computed for a cell are pairwise distinct, in range of the 8*nx*ny*nz array, and over all cells hit every ZCORN entry exactly once.", "quantifier": "every grid size", "why_tests_cant": "all sizes", "anchors": ["opm/upscaling/RelPermUtils.cpp:zcorn_start", "opm/upscaling/RelPermUtils.cpp:zcorn_offset", "opm/upscaling/RelPermUtils.cpp:sub2ind"]}
{"id": "C27", "title": "Voigt packing is a bijection", "statement": "getVoigtValue/setVoigtValue address the nine entries of a 3x3 tensor bijectively: set then get returns the value and leaves the other eight entries unchanged.", "quantifier": "every tensor, index and value", "why_tests_cant": "finite index but all values", "anchors": ["opm/upscaling/RelPermUtils.cpp:getVoigtValue", "opm/upscaling/RelPermUtils.cpp:setVoigtValue"]}
{"id": "C28", "title": "Every saturation point is computed by exactly one MPI process and loads are balanced", "statement": "The process assignment gives each point index to exactly one rank in 0..n-1, and no two ranks differ by more than one point.", "quantifier": "every number of points and processes", "why_tests_cant": "all sizes", "anchors": ["opm/upscaling/RelPermUtils.cpp:upscalePermeability", "opm/upscaling/RelPermUtils.cpp:upscaleCapillaryPressure"]}
{"id": "C29", "title": "Collecting results over MPI is schedule independent and cannot deadlock", "statement": "For every interleaving of sends and receives allowed by MPI (per-pair FIFO, blocking receive), the root ends with the result of every point exactly where the owning rank computed it and every process terminates.", "quantifier": "every number of processes, points and every delivery schedule", "why_tests_cant": "schedules are exponentially many", "anchors": ["opm/upscaling/RelPermUtils.cpp:collectResults"]}
{"id": "C30", "title": "Phase permeability contrast is bounded", "statement": "In the sweep over saturation points every entry of the cell tensors handed to the single-phase upscaler for a phase is at least the configured minimum and any two entries differ by at most the configured contrast, isotropic or anisotropic; the same holds for the single-phase run with isotropic input. Finding: with anisotropic input the single-phase run can exceed the contrast because its floor is computed from PERMX only.", "quantifier": "every permeability list, contrast and minimum", "why_tests_cant": "all inputs", "anchors": ["opm/upscaling/RelPermUtils.cpp:upscalePermeability"]}
{"id": "C31", "title": "Anisotropic sweep fails exactly on active cells without rock", "statement": "On consistent input the permeability sweep is well defined and never throws, except that it reads an element of an empty vector (undefined behaviour) exactly when the input is anisotropic and some active cell has region number 0.", "quantifier": "every cell list", "why_tests_cant": "needs a deck with SATNUM 0 and anisotropic input", "anchors": ["opm/upscaling/RelPermUtils.cpp:upscalePermeability"]}
{"id": "C32", "title": "Water saturation range and upscaled saturation are pore-volume means of cell values", "statement": "Upscaled irreducible/residual water saturations and every upscaled saturation of the capillary pressure sweep are pore-volume-weighted means of the cell saturations, so lie between the cell extremes and between Swir and Swor.", "quantifier": "every cell list, pressure point", "why_tests_cant": "all inputs", "anchors": ["opm/upscaling/RelPermUtils.cpp:calculateMinMaxCapillaryPressure", "opm/upscaling/RelPermUtils.cpp:upscaleCapillaryPressure"]}
{"id": "C33", "title": "Gravity offset of a cell is looked up for that cell exactly on fully active numbering", "statement": "The hydrostatic offset used for a cell in the capillary pressure sweep is the offset computed for that same cell when every active cell's global number equals its active number; in every other case (an inactive cell precedes an active one) the sweep reads beyond the offset array (undefined behaviour), since offsets are stored by active-cell counter and read by global cell number.", "quantifier": "every activity pattern", "why_tests_cant": "index confusion only shows on grids with inactive cells", "anchors": ["opm/upscaling/RelPermUtils.cpp:calculateCellPressureGradients", "opm/upscaling/RelPermUtils.cpp:upscaleCapillaryPressure"]}
{"id": "C34", "title": "Capillary pressure range with gravity covers all cells exactly for opposite extreme offsets", "statement": "With gravity the sweep range is [min own low end - largest offset, max own high end - smallest offset]; the local pressures of the two range ends lie outside or at every cell's own curve range for every offset exactly when the smallest and largest offset are opposite numbers (finding: the shift has the wrong sign).", "quantifier": "every list of cells with offsets", "why_tests_cant": "all inputs", "anchors": ["opm/upscaling/RelPermUtils.cpp:calculateMinMaxCapillaryPressure"]}
{"id": "C35", "title": "Curve admissibility test accepts exactly the intended curves", "statement": "checkCurve accepts exactly the tables whose smallest value is 0 or below the threshold; it changes at most one end value, setting it to 0, and only if that value was below the threshold (the first end is preferred). A non-negative accepted curve with its minimum at an end has a zero end afterwards. Findings: an accepted curve with an interior minimum keeps its non-zero ends, and a falling curve entirely below the threshold has its larger end zeroed.", "quantifier": "every table", "why_tests_cant": "all tables", "anchors": ["opm/upscaling/RelPermUtils.cpp:checkCurve"]}
{"id": "C36", "title": "Steady-state iteration always stops and reports truthfully", "statement": "Whatever the transport solver does (it may depend on all earlier calls), upscaleSteadyState calls it at most the configured number of times, passes each call the saturation the previous call left, keeps the step size in (0, max(initial,maximal)], halves it exactly after failed calls and doubles it (capped) exactly after changes below the tolerance; it reports success exactly when the last call converged with a change rate below the limit, it stops at the first such call, and a failure report means that all iterations were used.", "quantifier": "every behaviour of the transport solver and every parameter set", "why_tests_cant": "needs all solver behaviours", "anchors": ["opm/upscaling/SteadyStateUpscalerImplicit_impl.hpp:upscaleSteadyState"]}
{"id": "C37", "title": "Initial saturations respect the cell limits", "statement": "initSatLimits returns for every cell a saturation within [smin,smax] of the cell's rock shrunk by 1e-4 whenever that interval is non-empty, leaves admissible values unchanged, moves others to the nearest bound, and is idempotent; with a rock range below 2e-4 it returns smax-1e-4, which is outside [smin,smax] exactly when the range is below 1e-4 (finding).", "quantifier": "every saturation field and rock limits", "why_tests_cant": "all inputs", "anchors": ["opm/upscaling/SteadyStateUpscalerImplicit_impl.hpp:initSatLimits"]}
{"id": "C38", "title": "Both-phase saturation expansion and destriping are inverse", "statement": "Expanding water saturations to both phases and taking every second value from offset 0 returns the input and from offset 1 the complement; destripe is well defined exactly when the length modulo the stride is at most the offset, and writes out of range otherwise.", "quantifier": "every vector", "why_tests_cant": "all sizes", "anchors": ["opm/upscaling/SteadyStateUpscalerImplicit_impl.hpp:waterSatToBothSat", "opm/upscaling/SteadyStateUpscalerImplicit_impl.hpp:destripe"]}
{"id": "C39", "title": "Phase flows on a boundary side add up to the total flow", "statement": "computeInOutFlows reports water and oil in and out flow as sums over inflow and outflow boundary faces of flux times fractional flow, whose sums are the total fluxes; periodic inflow faces use the fractional flow of their partner face; it throws exactly when an inflow periodic face has no periodic outflow partner.", "quantifier": "every face table and flux field", "why_tests_cant": "all tables", "anchors": ["opm/upscaling/SteadyStateUpscalerImplicit_impl.hpp:computeInOutFlows"]}
{"id": "C40", "title": "Saturation and pressure-drop sweeps hit both end points and are monotone", "statement": "The manager's saturation sweep starts at the first and ends at the last requested saturation, is equidistant and strictly increasing; the pressure sweep likewise with constant ratio; a sweep of one point is the first value.", "quantifier": "every number of steps >=2 and limits", "why_tests_cant": "all sizes", "anchors": ["opm/upscaling/SteadyStateUpscalerManagerImplicit.hpp:upscale"]}
{"id": "C41", "title": "A failed steady-state run never seeds the next one", "statement": "For every saturation of the sweep, the initial saturation of each run is the final saturation of the most recent successful run of the same saturation, or the start profile (capillary limit, or uniform when that is switched off or throws) if there is none, with the cell limits applied; every pressure drop is run exactly once in order.", "quantifier": "every success pattern", "why_tests_cant": "histories", "anchors": ["opm/upscaling/SteadyStateUpscalerManagerImplicit.hpp:upscale"]}
{"id": "C42", "title": "Relative permeability output determines every tensor component but one", "statement": "The row written for a point determines pressure drop, saturation, success flag and every tensor component except (2,1), which is never written (finding: the last tensor column repeats (2,3)).", "quantifier": "every tensor", "why_tests_cant": "all tensors", "anchors": ["opm/upscaling/SteadyStateUpscalerManagerImplicit.hpp:writeRelPerm"]}
{"id": "C43", "title": "Control file round trip", "statement": "Reading back what writeControl wrote yields the same number of saturations and pressure drops with every value as printed; it is the same sweep exactly when every value survives printing in the stream's precision (the code sets none: finding); a sweep with fewer pressure rows than saturations is read out of range.", "quantifier": "every control record", "why_tests_cant": "all records", "anchors": ["opm/upscaling/SteadyStateUpscalerManagerImplicit.hpp:readControl", "opm/upscaling/SteadyStateUpscalerManagerImplicit.hpp:writeControl"]}
{"id": "C44", "title": "Explicit sub-steps add up to the requested time", "statement": "For a positive CFL time, a non-negative requested time and limits 1<=min<=max, the first attempt uses n steps with min<=n<=max and n*(time/n)=time; n is the minimum if the CFL time exceeds the requested time; unless n is capped by the maximum the step does not exceed the CFL time, and unless raised to the minimum no smaller n would do. A CFL time of zero gives the maximum.", "quantifier": "every time, CFL time, limits", "why_tests_cant": "all inputs", "anchors": ["opm/porsol/euler/EulerUpstream_impl.hpp:transportSolve"]}
{"id": "C45", "title": "Every retry restarts from the original saturation", "statement": "A transportSolve that returns leaves exactly the result of n accepted small steps of size time/n from the caller's saturation with n=n0*2^k, k<=10, and every earlier attempt contained a rejected step; at most 11 attempts are made, and a run whose 1024*max fits an int always terminates.", "quantifier": "every failure pattern of the small step", "why_tests_cant": "failure patterns unbounded", "anchors": ["opm/porsol/euler/EulerUpstream_impl.hpp:transportSolve"]}
{"id": "C46", "title": "After a failed explicit transport solve the saturation is that of the last attempt's rejected step", "statement": "If transportSolve throws, eleven attempts were made and the caller's saturation is the state left by the rejected step of the last one (n0*1024 steps); it is in general not the saturation at the call (finding, refutation given).", "quantifier": "every failure pattern", "why_tests_cant": "needs 11 consecutive failures", "anchors": ["opm/porsol/euler/EulerUpstream_impl.hpp:transportSolve"]}
{"id": "C47", "title": "Accepted saturations lie in the tolerated range", "statement": "After a small time step that does not throw every saturation is the explicit Euler value s+dt*r/pv, cut to [0,1] with clamping, and in [-0.001,1.001] with checking; a step throws only with checking and without clamping and when some value is out of the tolerated range.", "quantifier": "every residual, pore volume and dt", "why_tests_cant": "all inputs", "anchors": ["opm/porsol/euler/EulerUpstream_impl.hpp:checkAndPossiblyClampSat", "opm/porsol/euler/EulerUpstream_impl.hpp:smallTimeStep"]}
{"id": "C48", "title": "The explicit residual conserves the fluid globally", "statement": "The residual of every cell is its source term plus the contributions of all faces; every interior or periodic pair of faces of two different cells contributes equal and opposite amounts exactly once (from the lower cell index), boundary faces contribute only to their cell, and the total residual equals total sources minus the boundary terms.", "quantifier": "every grid topology, flux field, saturation, periodic table without self-periodic cells", "why_tests_cant": "all grids", "anchors": ["opm/porsol/euler/EulerUpstreamResidual_impl.hpp:computeResidual", "opm/porsol/euler/EulerUpstreamResidual_impl.hpp:UpdateForCell"]}
{"id": "C49", "title": "Upstream cells are chosen consistently with the phase flux direction", "statement": "With non-negative mobilities and gravity on, the phase fluxes computed with the chosen upstream mobilities agree in sign with the chosen upstream cells for both phases if the total flux is non-negative; for a negative flux this is guaranteed for one phase only, and holds for the other exactly if its flux is not positive. The face term is the water flux and flux minus it the oil flux. Findings: with negative flux and strong gravity the wrong cell is used and the result depends on the cell numbering; with gravity switched off the oil direction still depends on the gravity vector.", "quantifier": "all fluxes, gravity terms and mobilities", "why_tests_cant": "real-valued case split", "anchors": ["opm/porsol/euler/EulerUpstreamResidual_impl.hpp:UpdateForCell"]}
{"id": "C50", "title": "Block iteration over cells covers every cell once", "statement": "After one initialisation every recursive splitting of the iterator range visits the cells 0..n-1 once and in order; after a second initialisation the serial loop still does, but a split range can run past the end (finding).", "quantifier": "every number of cells and every split tree", "why_tests_cant": "schedule dependent", "anchors": ["opm/porsol/euler/EulerUpstreamResidual_impl.hpp:initFinal", "opm/porsol/euler/EulerUpstreamResidual_impl.hpp:IndirectRange"]}
{"id": "C51", "title": "The CFL time is a lower bound over cells", "statement": "The velocity and gravity CFL times are positive, not larger than factor*porevolume/throughput of any cell, and equal to one of them or 1e100; the velocity version fails exactly if some limit is zero. The capillary one is the least of its face values, and the combined time is the Courant number times the least enabled part.", "quantifier": "every grid and flux", "why_tests_cant": "all grids", "anchors": ["opm/porsol/euler/CflCalculator.hpp:findCFLtimeVelocity", "opm/porsol/euler/EulerUpstream_impl.hpp:computeCflTime"]}
{"id": "C52", "title": "Saturation matching functor is zero exactly at conserved volume", "statement": "MatchSaturatedVolumeFunctor evaluates to zero exactly when the pressure shift reproduces the original saturated pore volume, and is monotone if the capillary inverse is.", "quantifier": "every cell list", "why_tests_cant": "all inputs", "anchors": ["opm/porsol/euler/MatchSaturatedVolumeFunctor.hpp:MatchSaturatedVolumeFunctor"]}
{"id": "C53", "title": "The Newton solve always stops within its iteration limits", "statement": "For max_it>=1 ImplicitTransport::solve performs at most max_it Newton iterations and in each at most max(1, max_it_ls+2) line-search trials, for every model and linear solver behaviour. Finding: with max_it=0 the loop need not terminate.", "quantifier": "every residual sequence", "why_tests_cant": "all model behaviours", "anchors": ["opm/core/transport/implicit/ImplicitTransport.hpp:solve"]}
{"id": "C54", "title": "What a Newton solve's success flag says about the returned state", "statement": "Flag 1 means the residual norm of the returned state is below atol and flag 2 that it is below rtol times the initial one, and in both cases the returned state is the initial state or one the model accepted; flag 3 means only that the last increment was below dxtol; every other outcome is -1 and occurs only at the iteration limit or after an exhausted line search; the returned state is always the last accepted state plus a halved increment. Finding: flag 3 can report success for a state the model refused (refutation given).", "quantifier": "every model behaviour", "why_tests_cant": "needs adverse line-search sequences", "anchors": ["opm/core/transport/implicit/ImplicitTransport.hpp:solve"]}
{"id": "C55", "title": "Implicit retry loop restarts from the original saturation and always stops", "statement": "EulerUpstreamImplicit::transportSolve makes at most max_repeats+2 attempts with 1, 2, 4, ... steps, each from the caller's saturation and every one before the last contains a failed step; success leaves n accepted steps of time/n. Finding: after a failure the caller's saturation is the partial result of the last attempt (refutation given).", "quantifier": "every solver outcome pattern", "why_tests_cant": "histories", "anchors": ["opm/porsol/euler/EulerUpstreamImplicit_impl.hpp:transportSolve"]}
{"id": "C56", "title": "Local contribution buffer is addressed in bounds and without overlap", "statement": "For a cell with n connections all sub-blocks (residual, self Jacobian, neighbour Jacobians, accumulation) lie inside the allocated buffer and are pairwise disjoint.", "quantifier": "every connection count and dof count", "why_tests_cant": "all sizes", "anchors": ["opm/core/transport/implicit/ImplicitAssembly.hpp:computeCellContrib"]}
{"id": "C57", "title": "Every assembled Jacobian entry exists in the sparsity pattern", "statement": "Every (row,column) block the assembler adds to was created by the structure pass, in every grid topology.", "quantifier": "every grid topology", "why_tests_cant": "all grids", "anchors": ["opm/core/transport/implicit/ImplicitAssembly.hpp:createRowStructure", "opm/core/transport/implicit/ImplicitAssembly.hpp:assembleCellContrib"]}
{"id": "C58", "title": "The assembled residual is the cell balance", "statement": "Residual entry of cell c equals accumulation + dt*(sum of signed connection fluxes) + sources, for every well-formed grid; if every half face belongs to an interior face between two different cells or to a periodic pair with equal parameters, the fluxes cancel and the total residual is total accumulation plus sources. Findings: a periodic pair whose two one-sided transmissibilities differ loses or creates fluid through the capillary term, and so does a cell glued to itself (refutations given).", "quantifier": "every grid topology and state", "why_tests_cant": "all grids", "anchors": ["opm/core/transport/implicit/ImplicitAssembly.hpp:assembleCellContrib", "opm/core/transport/implicit/SinglePointUpwindTwoPhase.hpp:fluxConnection"]}
{"id": "C59", "title": "The assembled Jacobian is the derivative of the assembled residual", "statement": "Every entry (c,j) of the assembled matrix equals the derivative of the residual of cell c with respect to the saturation of cell j, upwind directions held fixed, whenever the stored mobility and capillary pressure derivatives are the derivatives of the stored values and the total mobilities are non-zero; and the derivatives stored by initIteration are with respect to the first saturation.", "quantifier": "all mobilities with positive total mobility, all fluxes", "why_tests_cant": "calculus identity over reals", "anchors": ["opm/core/transport/implicit/SinglePointUpwindTwoPhase.hpp:fluxConnection", "opm/core/transport/implicit/SinglePointUpwindTwoPhase.hpp:accumulation", "opm/core/transport/implicit/SinglePointUpwindTwoPhase.hpp:sourceTerms"]}
{"id": "C60", "title": "Implicit upwinding is consistent", "statement": "With non-negative mobilities upwindMobility selects for each phase a side such that the phase flux computed with the selected mobilities does not flow into that side.", "quantifier": "all fluxes and mobilities >=0", "why_tests_cant": "real case split", "anchors": ["opm/core/transport/implicit/SinglePointUpwindTwoPhase.hpp:upwindMobility"]}
{"id": "C61", "title": "Saturations stay in range and sum to one after a step", "statement": "finishStep leaves every cell with s0 = the incremented saturation cut to [smin,smax] and s0+s1=1; initIteration returns true exactly if all incremented saturations are within 1e-5 of the range, and stores mobilities, derivatives and capillary pressures of the cut saturations; initStep starts from the old saturation or from 1/2.", "quantifier": "every increment", "why_tests_cant": "all inputs", "anchors": ["opm/core/transport/implicit/SinglePointUpwindTwoPhase.hpp:finishStep", "opm/core/transport/implicit/SinglePointUpwindTwoPhase.hpp:initIteration"]}
{"id": "C62", "title": "Model parameter storage segments do not overlap", "statement": "The mobility, derivative, pore volume, gravity, saturation, capillary and transmissibility segments are disjoint and inside the allocated block, for every cell and connection count with faces<=connections.", "quantifier": "every grid size", "why_tests_cant": "all sizes", "anchors": ["opm/core/transport/implicit/SinglePointUpwindTwoPhase.hpp:ModelParameterStorage"]}
{"id": "C63", "title": "Source list append keeps earlier entries", "statement": "After any history of creating, appending and clearing without allocation failure the tables hold exactly the appended sources in order, inside their allocated blocks, other memory is untouched, and destroying releases every table; a phase count mismatch changes nothing; a failing creation returns NULL and leaks nothing. Finding: a failing append leaves the object usable only if it was empty or all five reallocations failed; in every other case destroying it is undefined behaviour.", "quantifier": "every append history, every allocation failure point", "why_tests_cant": "allocation failures are not injectable in unit tests", "anchors": ["opm/core/transport/implicit/transport_source.c:append_transport_source", "opm/core/transport/implicit/transport_source.c:expand_source_tables"]}
{"id": "C64", "title": "The mimetic inverse inner product is symmetric and exact for linear pressure", "statement": "The matrix built for a cell equals the documented formula whatever the work arrays contain, is symmetric for symmetric permeability, maps the face pressures of a linear pressure field to the exact Darcy fluxes -mobility N K grad p on every closed cell, and together with the gravity flux gives no flow for hydrostatic pressure.", "quantifier": "every cell shape (number of faces, normals, centroids satisfying N^T C = vol I) and permeability tensor", "why_tests_cant": "all geometries", "anchors": ["opm/porsol/mimetic/MimeticIPEvaluator.hpp:buildStaticContrib", "opm/porsol/mimetic/MimeticIPEvaluator.hpp:evaluate"]}
{"id": "C65", "title": "The mimetic inverse inner product is positive definite", "statement": "v^T Binv v >= 0 for every v when K is positive semidefinite, and > 0 for every v <> 0 when K is positive definite and the cell is closed.", "quantifier": "every cell and vector", "why_tests_cant": "all vectors", "anchors": ["opm/porsol/mimetic/MimeticIPEvaluator.hpp:buildStaticContrib"]}
{"id": "C66", "title": "Pressure solve conserves mass in every cell for any contact pressures", "statement": "The cell pressures and outfluxes the hybrid flow solver recovers obey the local Darcy law and the outfluxes of every cell sum exactly to the cell's source, no matter how inaccurately the linear system for the contact pressures was solved; so solve conserves mass with each of its four linear solvers whatever they return, and an unknown solver type throws.", "quantifier": "every local matrix with nonzero sum, gravity flux, source and contact pressure vector", "why_tests_cant": "all numerical states", "anchors": ["opm/porsol/mimetic/IncompFlowSolverHybrid.hpp:computePressureAndFluxes", "opm/porsol/mimetic/IncompFlowSolverHybrid.hpp:buildCellContrib"]}
{"id": "C67", "title": "A solution of the assembled system has continuous fluxes and satisfies the boundary conditions", "statement": "The contact pressures satisfy the assembled equations if and only if the recovered fluxes on the two sides of every interior face are opposite, Neumann faces carry the prescribed outflux, Dirichlet faces have the prescribed contact pressure, and periodic pairs have the prescribed jump and opposite outfluxes. The local inner product matrices are assumed symmetric positive definite.", "quantifier": "every grid topology and local matrices", "why_tests_cant": "all grids", "anchors": ["opm/porsol/mimetic/IncompFlowSolverHybrid.hpp:addCellContrib", "opm/porsol/mimetic/IncompFlowSolverHybrid.hpp:buildCellContrib", "opm/porsol/mimetic/IncompFlowSolverHybrid.hpp:computePressureAndFluxes"]}
{"id": "C68", "title": "A solution of the assembled periodic system has the prescribed jump and matching fluxes", "statement": "If the assembled equations hold, the contact pressures of each periodic pair differ by the prescribed jump and their outfluxes are opposite (for symmetric positive definite local matrices).", "quantifier": "every grid with periodic pairs", "why_tests_cant": "all grids", "anchors": ["opm/porsol/mimetic/IncompFlowSolverHybrid.hpp:addCellContrib"]}
{"id": "C69", "title": "The assembled flow matrix is symmetric and positive definite, so the flow field is unique", "statement": "The global contact-pressure matrix is symmetric, including Dirichlet and periodic rows; with symmetric positive definite local matrices it is positive semidefinite, and positive definite when every cell is connected to a prescribed pressure; any two solutions have the same fluxes, and there is only one solution when every cell is connected to a prescribed pressure.", "quantifier": "every topology", "why_tests_cant": "all grids", "anchors": ["opm/porsol/mimetic/IncompFlowSolverHybrid.hpp:addCellContrib", "opm/porsol/mimetic/IncompFlowSolverHybrid.hpp:buildCellContrib"]}
{"id": "C70", "title": "Face degrees of freedom are numbered bijectively", "statement": "On every conforming grid whose cells are visited in index order (or whose face counts agree with that order), enumerateGridDof succeeds, gives the two cells of an interior face the same number and different faces different numbers, uses exactly 0..total-1 with interior faces first, and records every cell's visiting position and the largest face count; the grid interface's face indices are the same numbering and are correct for every visiting order; topologyIsSane accepts exactly the grids where two cells share at most one face. Finding: for a conforming grid visited in another order enumerateGridDof writes outside its arrays.", "quantifier": "every conforming topology where two cells share at most one face", "why_tests_cant": "all grids", "anchors": ["opm/porsol/mimetic/IncompFlowSolverHybrid.hpp:enumerateGridDof"]}
{"id": "C71", "title": "Post-processed fluxes are exactly antisymmetric", "statement": "After postProcessFluxes the two sides of every interior or periodic face carry exactly opposite fluxes equal to half the difference of the old ones, other boundary faces keep their flux, and the returned number is the largest absolute change.", "quantifier": "every topology and flux field", "why_tests_cant": "all grids", "anchors": ["opm/porsol/mimetic/IncompFlowSolverHybrid.hpp:postProcessFluxes"]}
{"id": "C72", "title": "Every matrix entry the flow assembly touches is in the allocated pattern", "statement": "For every conforming grid with matching periodic pairs, initSystemStructure and the assembly run to completion: no index leaves its array, no periodic lookup fails, and every matrix entry the assembly updates is one the structure set-up created.", "quantifier": "every topology", "why_tests_cant": "all grids", "anchors": ["opm/porsol/mimetic/IncompFlowSolverHybrid.hpp:setGridConnections", "opm/porsol/mimetic/IncompFlowSolverHybrid.hpp:setBCConnections", "opm/porsol/mimetic/IncompFlowSolverHybrid.hpp:addCellContrib"]}
{"id": "C73", "title": "Permeability tensors are symmetric and bounded below", "statement": "For every accepted deck with some permeability keyword, component (i,j) of a cell's tensor is the value, at the cell's own global index, of the first keyword given among those that may supply it (a diagonal component falls back on the other diagonal keywords, an off-diagonal one on its mirror image), the diagonal is raised to the threshold, and the tensor is symmetric; without off-diagonal keywords and with a positive threshold it is positive definite. Without any permeability keyword reading a tensor is refused. Uniform initialisation gives every cell the given permeability times the identity.", "quantifier": "every subset of permeability keywords and data", "why_tests_cant": "2^9 keyword subsets times all data", "anchors": ["opm/porsol/common/ReservoirPropertyCommon_impl.hpp:fillTensor", "opm/porsol/common/ReservoirPropertyCommon_impl.hpp:assignPermeability", "opm/porsol/common/ReservoirPropertyCommon_impl.hpp:classifyPermeability"]}
{"id": "C74", "title": "Incomplete permeability input is rejected", "statement": "A deck is accepted if and only if every off-diagonal permeability keyword comes with both diagonal keywords of its directions and every property array has one value per grid cell; every other deck makes initialisation throw. The reported kind of permeability (none, scalar, diagonal, tensor) is the one the keywords describe.", "quantifier": "all 512 keyword subsets", "why_tests_cant": "exhaustive over subsets", "anchors": ["opm/porsol/common/ReservoirPropertyCommon_impl.hpp:classifyPermeability"]}
{"id": "C75", "title": "Cell properties are read from the cell's own global index", "statement": "Porosity, NTG, SWCR and SOWCR of active cell c are the deck values at its global index, and the defaults 1, 1, 0, 0 when the keyword is absent; the rock type is SATNUM, or else ROCKTYPE, at the global index minus one, and 0 without both. Finding: region number 0 yields rock -1, which is not checked.", "quantifier": "every active-cell map", "why_tests_cant": "all maps", "anchors": ["opm/porsol/common/ReservoirPropertyCommon_impl.hpp:assignPorosity", "opm/porsol/common/ReservoirPropertyCommon_impl.hpp:assignRockTable"]}
{"id": "C76", "title": "Closed-form 2x2 and 3x3 inverses are inverses", "statement": "inverse2x2(m) is a two-sided inverse when det m is nonzero and divides by zero otherwise; inverse3x3(m) is a two-sided inverse exactly when det m and m(2,2) are both nonzero and divides by zero otherwise. Finding: an invertible matrix with m(2,2)=0 is not handled.", "quantifier": "all real matrices", "why_tests_cant": "all matrices", "anchors": ["opm/porsol/common/MatrixInverse.hpp:inverse2x2", "opm/porsol/common/MatrixInverse.hpp:inverse3x3"]}
{"id": "C77", "title": "J-function capillary pressure and its inverse agree", "statement": "For every rock with a positive mean diagonal permeability k and porosity phi, capPress(s) is J(s) sigma cos(theta)/sqrt(k/phi) (or the tabulated pressure for unscaled tables), capPressDeriv is its derivative and it decreases with s when J does; satFromCapPress always lies in [smin,smax], is the clamped inverse of the scaled pressure, and satFromCapPress(capPress(s)) = s for every s in [smin,smax] if the table inverse is exact.", "quantifier": "every permeability with positive trace and porosity", "why_tests_cant": "all reals", "anchors": ["opm/porsol/common/RockJfunc.hpp:capPress", "opm/porsol/common/RockJfunc.hpp:satFromCapPress"]}
{"id": "C78", "title": "Capillary pressure of a cell follows its rock; the default inverse is constant", "statement": "Capillary pressure, its derivative, its inverse and the saturation limits of a cell are those of the rock with the cell's rock number, permeability and porosity, and inverting a cell's capillary pressure returns its saturation; computeCapPressure lists the capillary pressure of every cell. Without rock tables the pressure is 1e5(1-s) with the right derivative and limits 0 and 1, but the inverse returns the saturation for s=0 only (finding: it is constant 0).", "quantifier": "all saturations", "why_tests_cant": "documented default", "anchors": ["opm/porsol/common/ReservoirPropertyCommon_impl.hpp:saturationFromCapillaryPressure", "opm/porsol/common/ReservoirPropertyCommon_impl.hpp:capillaryPressure"]}
{"id": "C79", "title": "Arithmetic, geometric and harmonic averages are ordered", "statement": "For positive arguments harmonic <= geometric <= arithmetic, all between min and max, symmetric and equal for equal arguments; geometric and harmonic averages are 0 when the product is not positive.", "quantifier": "all reals", "why_tests_cant": "all reals", "anchors": ["opm/core/utility/Average.hpp:arithmeticAverage", "opm/core/utility/Average.hpp:geometricAverage", "opm/core/utility/Average.hpp:harmonicAverage"]}
{"id": "C80", "title": "Fractional flow is a monotone fraction for default fluid curves", "statement": "For positive viscosities and nonnegative relative permeabilities not both zero, fractionalFlow is krw/mu1/(krw/mu1+kro/mu2), lies in [0,1] and does not decrease when krw grows and kro falls; total mobility is the positive sum of the phase mobilities. With the quadratic default curves it is 0 at s=0, 1 at s=1 and strictly increasing on [0,1]. phaseMobilitiesDeriv holds the derivatives of the mobilities with respect to each phase's own saturation. The anisotropic fractional flow is the mean of the three directions' fractions. computePhaseVelocities splits every cell velocity v into f v and (1-f) v.", "quantifier": "all saturations and viscosities", "why_tests_cant": "all reals", "anchors": ["opm/porsol/common/ReservoirPropertyCapillary_impl.hpp:fractionalFlow", "opm/porsol/common/SimulatorUtilities.hpp:computePhaseVelocities"]}
{"id": "C81", "title": "CFL factors bound the sampled slopes of the flow functions", "statement": "computeCflFactors returns, for positive viscosities and usable relative permeabilities, the smallest over the rocks of one over the largest slope of the fractional flow (and of the gravity flow) over the 256 parts of [0,1], and the largest over the rocks of gravity flow times capillary pressure slope, the latter at the rock's smallest permeability and largest porosity; the factors are positive. Finding: in the anisotropic class the capillary factor is the constant 1e100 with rocks and -1e100 without, whatever the curves.", "quantifier": "every rock set", "why_tests_cant": "all rock curves", "anchors": ["opm/porsol/common/ReservoirPropertyCapillaryAnisotropicRelperm_impl.hpp:computeSingleRockCflFactors"]}
{"id": "C82", "title": "Cell velocity is exact for uniform flow", "statement": "estimateCellVelocity (and its partitioned form, which fills only the cells of one partition and zero elsewhere) returns for every cell the sum of outflux times face offset divided by volume, and estimateCellVelocitySimpleInterface the same from face fluxes and face neighbours; both return v when the fluxes are those of a uniform velocity v and the cell is closed (sum over faces of centroid offset times area normal = volume times identity).", "quantifier": "every polyhedral cell", "why_tests_cant": "all geometries", "anchors": ["opm/porsol/common/SimulatorUtilities.hpp:estimateCellVelocity"]}
{"id": "C83", "title": "Dense matrix storage and arithmetic", "statement": "C- and Fortran-ordered matrices address every (row,col) in range, injectively and onto the storage; reading, writing, assignment between orderings, equality, addition, scaling, zero, identity, trace, matrix-vector and matrix-matrix products and the BLAS wrappers (matMulAdd, vecMulAdd, rank-k symmetricUpdate) equal their mathematical definitions for every size. symmetricUpdate(A,B) computes A B A for diagonal A. Finding: it does not for a symmetric A that is not diagonal, although the comment only asks for A==A'.", "quantifier": "every size", "why_tests_cant": "all sizes", "anchors": ["opm/porsol/common/Matrix.hpp:COrdering", "opm/porsol/common/Matrix.hpp:FortranOrdering", "opm/porsol/common/Matrix.hpp:prod"]}
{"id": "C84", "title": "Equations are numbered without gaps or duplicates", "statement": "initForAssembly numbers the degrees of freedom that are neither fixed nor slaves in increasing order and bijectively onto 0..getEqns()-1 and gives the others no number. Finding: the counter is not reset, so a second call continues where the first one ended and every number is out of the range 0..(number of free degrees of freedom)-1.", "quantifier": "every grid, fixed-node map and constraint set", "why_tests_cant": "all grids", "anchors": ["opm/elasticity/asmhandler_impl.hpp:preprocess"]}
{"id": "C85", "title": "Constraint chains resolve to independent masters", "statement": "For acyclic constraint sets resolving terminates, afterwards no master of any constraint is itself a slave, and the resolved constraint defines the same displacement relation.", "quantifier": "every acyclic constraint set", "why_tests_cant": "all chains", "anchors": ["opm/elasticity/asmhandler_impl.hpp:resolveMPCChain"]}
{"id": "C86", "title": "A cyclic constraint set makes the resolver loop", "statement": "Resolution of the constraint chains ends exactly for acyclic constraint sets: a slave that is (through any number of constraints) its own master makes the recursion go on for ever.", "quantifier": "every constraint set", "why_tests_cant": "all sets", "anchors": ["opm/elasticity/asmhandler_impl.hpp:resolveMPCChain"]}
{"id": "C87", "title": "Assembly equals congruence with the constraint transformation", "statement": "Adding element matrices through addElement/addDOF yields T^T K T on the equations, where T expresses every degree of freedom by the numbered ones; symmetric element matrices give a symmetric global matrix and the adjacency pattern contains every touched entry.", "quantifier": "every element list, constraint set", "why_tests_cant": "all meshes", "anchors": ["opm/elasticity/asmhandler_impl.hpp:addElement", "opm/elasticity/asmhandler_impl.hpp:addDOF", "opm/elasticity/asmhandler_impl.hpp:determineAdjacencyPattern"]}
{"id": "C88", "title": "Expanded solutions satisfy the constraints", "statement": "expandSolution returns, for every equation solution, the prescribed value on fixed degrees of freedom and the constraint combination of the unknowns elsewhere; extractValues agrees with it on every element. A resolved constraint holds for the result exactly if its constant and the contribution of its fixed masters add up to zero; so with homogeneous constraints and fixed values all original constraints hold. Finding: constants and fixed non-zero masters are otherwise ignored.", "quantifier": "every constraint set and solution", "why_tests_cant": "all inputs", "anchors": ["opm/elasticity/asmhandler_impl.hpp:expandSolution", "opm/elasticity/asmhandler_impl.hpp:extractValues"]}
{"id": "C89", "title": "Isotropic stiffness and compliance are inverse, symmetric and positive definite", "statement": "For E>0 and 0<=nu<1/2 the 6x6 stiffness matrix times the 6x6 compliance matrix is the identity, both are symmetric and positive definite, and the stiffness is linear in E; nu outside the range is reported as failure.", "quantifier": "all E, nu", "why_tests_cant": "all reals", "anchors": ["opm/elasticity/materials.cpp:Isotropic::getConstitutiveMatrix"]}
{"id": "C90", "title": "Elastic parameter conversions agree", "statement": "A rock file that gives (K,mu), (lambda,mu) with lambda>0, (vp,vs,rho) or (E,nu) yields the material with the density of the file and the isotropic stiffness matrix of Lame parameters lambda=K-2/3mu, lambda, rho vp^2-2 rho vs^2, or E nu/((1+nu)(1-2nu)), and shear modulus mu, rho vs^2 or E/(2(1+nu)); so files that describe the same solid give the same matrix, and Poisson ratios outside [0,1/2] are refused. Finding: lambda=0 in the (lambda,mu) form, an admissible solid, computes 0/0.", "quantifier": "all admissible parameters", "why_tests_cant": "all reals", "anchors": ["opm/elasticity/material.cpp:Material::create", "opm/elasticity/elasticity_upscale_impl.hpp:loadMaterialsFromGrid"]}
{"id": "C91", "title": "Anisotropic input is permuted consistently", "statement": "The 21 input coefficients are the upper triangle, row by row, of a symmetric matrix, and the material matrix is that matrix with the 4th and 6th component exchanged, so strain energy is preserved; the five coefficients of a transversely isotropic file are placed in the same order; fewer than 21 coefficients are undefined behaviour. Finding: the density given in these files is not kept.", "quantifier": "all coefficient lists", "why_tests_cant": "all reals", "anchors": ["opm/elasticity/materials.cpp:OrthotropicSym"]}
{"id": "C92", "title": "Which entries of a material matrix depend on the previously used matrix", "statement": "In space the matrix of an isotropic or a symmetric orthotropic material does not depend on what the output matrix held before. Finding: the diagonal orthotropic form sets the six diagonal entries only, and the plane isotropic form the five entries that are not zero, so all other entries keep what an earlier material left there; a refused Poisson ratio leaves the whole plane matrix alone.", "quantifier": "every previous content", "why_tests_cant": "history dependent", "anchors": ["opm/elasticity/materials.cpp:OrthotropicD::getConstitutiveMatrix"]}
{"id": "C93", "title": "Element shape functions form a nodal partition of unity", "statement": "In 2 and 3 dimensions the shape functions are 1 at their node and 0 at the others, they reproduce every multilinear function from its values at the corners (so they sum to one and reproduce linear functions), and moving a point by h along coordinate k changes the function by exactly h times component k of the gradient routine. Finding: in one dimension the constructor reads beyond its two-entry tables (undefined behaviour).", "quantifier": "all reference coordinates", "why_tests_cant": "all reals", "anchors": ["opm/elasticity/shapefunctions.hpp:P1ShapeFunctionSet"]}
{"id": "C94", "title": "The gradient of cardinal functions is never defined", "statement": "For every node set, every node of it and every point LagrangeCardinalFunction::evaluateGradient divides by the distance of a node to itself, so its result is not a number, and TensorProductFunction::evaluateGradient returns nothing (undefined behaviour). Finding: neither can be used.", "quantifier": "every node set", "why_tests_cant": "all node sets", "anchors": ["opm/elasticity/shapefunctions.hpp:LagrangeCardinalFunction"]}
{"id": "C95", "title": "Element stiffness is symmetric, positive semidefinite and blind to rigid motion", "statement": "In 2 and 3 dimensions the strain matrix gives, for every displacement, the strain of the gradient of the interpolated displacement, and the exact strain G of every affine displacement c+Gx (patch test), hence zero for translations and infinitesimal rotations; B^T C B detJ w is symmetric and positive semidefinite for symmetric positive semidefinite C and nonnegative detJ w, its energy is detJ w times the strain energy, and displacements without strain are in its kernel.", "quantifier": "every shape gradient, material, displacement", "why_tests_cant": "all reals", "anchors": ["opm/elasticity/elasticity_impl.hpp:getBmatrix", "opm/elasticity/elasticity_impl.hpp:getStiffnessMatrix"]}
{"id": "C96", "title": "Sparse matrix helpers compute what they say", "statement": "fromAdjacency stores exactly the listed positions; fromDense keeps exactly the entries larger than 1e-14 in absolute value; Axpy returns A + alpha B; augment places B into A (overwriting what it meets), with all diagonal entries stored and a symmetric result in the symmetric form; extractDiagonal and extractBlock copy the entries named, extractDiagonal being undefined when a diagonal entry is not stored; saveAsc writes every entry row by row and print every stored entry. Finding: diagonal(N) returns a matrix whose diagonal is stored but zero, not the identity its documentation names.", "quantifier": "all matrices", "why_tests_cant": "all sizes", "anchors": ["opm/elasticity/matrixops.cpp:MatrixOps"]}
{"id": "C97", "title": "Saddle point operator and Uzawa solver are consistent", "statement": "MortarEvaluator::apply computes [A B; B^T 0]x and the matrix handed to the direct solver has exactly these entries. For every symmetric A, inner solver that solves A u=f from zero and outer solver that inverts the Schur operator evaluated with it, the Uzawa scheme returns the solution of the saddle point system with the displacement part of the load and zero constraint right-hand side, whatever x held before; the multiplier part of the load is ignored. Finding: applyscaleadd adds B lambda without the factor alpha; it is y+alpha*[A B; B^T 0]x exactly when alpha=1 or B lambda=0.", "quantifier": "all matrices and vectors", "why_tests_cant": "all sizes", "anchors": ["opm/elasticity/mortar_evaluator.hpp:MortarEvaluator", "opm/elasticity/uzawa_solver.hpp:UzawaSolver"]}
{"id": "C98", "title": "Boundary quads sample and invert bilinear maps", "statement": "For every rectangle and numbers of cells, the uniform boundary grid holds, in order, one quad per cell whose bounding box has area at least 1e-7, numbers the (n1+1)(n2+1) nodes consistently, stores the exact bounding box of every quad and marks exactly the four corner nodes as fixed (none in Dune's order); a single layer starting at height 0 consists of n1 exact rectangles that cover the rectangle. Finding: the height of the second corner of every quad is never set and is 0, so it is right only in rows at height 0. The bilinear map takes the four corners to the vertices and is affine along coordinate lines; when the inverse map reports success, and no quantity is within its tolerances, the coordinates returned reproduce the point, and every point of a convex counterclockwise quad gets back its own local coordinates, so locating such a point succeeds. Findings: the inverse map has no lower bound, so points outside are accepted with negative coordinates, and for clockwise quads it can return a root outside after having found the one inside.", "quantifier": "all rectangles, sizes and points", "why_tests_cant": "all reals", "anchors": ["opm/elasticity/boundarygrid.cpp:BoundaryGrid::uniform", "opm/elasticity/boundarygrid.cpp:BoundaryGrid::Q4inv"]}
{"id": "C99", "title": "Quadratic and cubic root finders return roots", "statement": "With a negligible cubic coefficient cubicSolve returns exactly the real roots with multiplicity (discriminants between -eps^4 and 0 are treated as a double root, with the residual stated; no value is returned for more negative ones), one value for a linear and none for a constant polynomial. With three distinct real roots clear of the tolerance the three values are the roots. With a double root and negative q the three values are the roots (for an exact exponent 1/3). Findings: with one real root the first value is the root and the other two are equal and no root; for p>0, q<0 all three values are NaN; for p<=0, q>=0 and nonnegative discriminant the existing root is missed; the exponent 1.f/3 is a single precision number, so that even the first value is not a root in general. bilinearSolve returns only solutions of its two equations when no quantity is within its tolerances, and otherwise values that satisfy the first equation exactly and the second up to the stated residual.", "quantifier": "all coefficients", "why_tests_cant": "all reals", "anchors": ["opm/elasticity/boundarygrid.cpp:BoundaryGrid::bilinearSolve", "opm/elasticity/boundarygrid.cpp:BoundaryGrid::cubicSolve"]}
{"id": "C100", "title": "Mortar multiplier numbering is periodic and gap free", "statement": "For every number m>=2 of interface elements with n1>=2 by n2 nodes each, the numbering succeeds: nodes of neighbouring elements on their common edge get the same number, the last column of the last element gets the numbers of the first column of the first, the last row those of the first row when n2>2, all other nodes get different numbers, node (0,0) gets -1 (no multiplier) and the numbers 0..total-1 are all used, where total is what is returned. Findings: with a single interface element the function reads outside its arrays; with n2=2 the top row is not identified with the bottom row; with n1>2 all nodes of the last element beyond its first column get the number of the first column (callers use n1=2).", "quantifier": "every interface size and order", "why_tests_cant": "all sizes", "anchors": ["opm/elasticity/elasticity_upscale_impl.hpp:renumber"]}
{"id": "C101", "title": "Materials of a grid, their volume fractions and the density", "statement": "When moduli, region numbers (at least 1) and densities exist for every cell and the volumes are positive, loading succeeds: cells share a material exactly when both moduli agree, the materials have the numbers 0..n-1, the reported volume fractions are nonnegative, sum to one and are the volume of every material (in lexicographic order of the moduli), or of every region up to the largest number present, divided by the total volume. Loading never succeeds otherwise; in particular with uniform materials every cell index has to be below the number of cells. Finding: the accumulated density starts at -1, so the reported density is (S-1)/V for S = sum(rho v) > 1 and S-1 for S <= 1, not S/V, and -1 without densities.", "quantifier": "every grid and material map", "why_tests_cant": "all grids", "anchors": ["opm/elasticity/elasticity_upscale_impl.hpp:loadMaterialsFromGrid", "opm/elasticity/elasticity_upscale_impl.hpp:loadMaterialsFromRocklist"]}
{"id": "C102", "title": "Bounding box search works for any coordinates", "statement": "findBoundaries returns the exact least and greatest coordinate of the grid in every direction whenever some vertex is at most 1e5 and some vertex at least -1e5 in that direction. Finding: when all vertices are beyond 1e5 it returns 1e5 as the minimum, and when all are below -1e5 it returns -1e5 as the maximum.", "quantifier": "every vertex list", "why_tests_cant": "all coordinates", "anchors": ["opm/elasticity/elasticity_upscale_impl.hpp:findBoundaries"]}
{"id": "C103", "title": "Isotropic wave speeds do not depend on direction", "statement": "For an isotropic stiffness with mu>=0 and 3 lambda+2mu>=0 and every dip, azimuth and density rho>0 the wave speeds are sqrt((lambda+2mu)/rho), sqrt(mu/rho), sqrt(mu/rho), for any eigenvalue routine that returns the roots of the characteristic polynomial.", "quantifier": "all angles", "why_tests_cant": "all reals", "anchors": ["opm/elasticity/elasticity.cpp:waveSpeeds"]}
{"id": "C104", "title": "Wave speeds solve the Christoffel equation of a matrix in Voigt order", "statement": "For every symmetric positive semidefinite matrix in the order xx,yy,zz,yz,xz,xy waveSpeeds returns the three real speeds, largest first, whose squares times the density are the eigenvalues of the Christoffel matrix of the direction. Finding: the driver calls it before it exchanges the 4th and 6th component, and with density 1: the speeds it reports belong to the matrix it reports with these components exchanged back, and there are stiffness matrices for which they are not the speeds of the reported matrix; without a density no speeds are reported.", "quantifier": "every upscaled stiffness", "why_tests_cant": "anisotropic results only", "anchors": ["examples/upscale_elasticity.cpp:run", "opm/elasticity/elasticity.cpp:waveSpeeds"]}
{"id": "C105", "title": "Regularised coarse blocks partition the fine grid", "statement": "cpregularize: for a resolution of at least one the coarse-to-fine table has resolution+1 entries, entry c is c*(size/res)+min(c, size mod res) and the last entry is the upper limit; if the limit is the grid size, the blocks start at 0, have sizes that differ by at most one and contain every index exactly once. The depth table is the uniform subdivision of [zmin, zmax]. Findings: the table ignores the lower limit, and an upper limit below the start of the last block gives a block that is inside out; with positive resolutions the program never produces a grid, since the body of its loop always ends in an exception.", "quantifier": "every grid size and resolution>=1", "why_tests_cant": "all sizes", "anchors": ["examples/cpregularize.cpp:main"]}
{"id": "C106", "title": "Grid statistics are ordered means", "statement": "upscale_avg: for distinct grid cells inside the deck's arrays every cell gets its volume times its ACTNUM value, the number of active cells is the number of cells with more than 1e-10, pore, net and net pore volumes are the sums over the active cells, and porosity, net-to-gross and net porosity are their quotients. If no cell has a positive volume up to 1e-10, these are volume-weighted means within the range of the active cells, and min <= harmonic <= geometric <= arithmetic <= max holds for the permeability averages, with and without volume weights. Finding: the total volume also counts cells that are too small to be active, so if there are any, a constant permeability k is reported with an arithmetic average below k and a harmonic average above k.", "quantifier": "every cell list with positive permeability", "why_tests_cant": "all inputs", "anchors": ["examples/upscale_avg.cpp:main"]}
{"id": "C107", "title": "Region based conditions affect exactly the faces inside the region", "statement": "setupRegionBasedConditions gives Dirichlet pressure to exactly the boundary ids one of whose faces has its centroid strictly inside a box; every other boundary id of the grid keeps the condition it had, or gets no-flow if it is new.", "quantifier": "every face list, box and previous table", "why_tests_cant": "all geometries and histories", "anchors": ["opm/porsol/common/setupBoundaryConditions.hpp:setupRegionBasedConditions"]}
{"id": "C108", "title": "Model thickness is the distance between mean top and mean bottom", "statement": "The thickness used for the gravity offsets is the mean depth of the lower corners of the active cells of the lowest layer minus the mean depth of the upper corners of the active cells of the top layer; every corner read is inside the array; it is a finite number exactly when both layers have an active cell.", "quantifier": "every grid size, corner depth array and set of active cells", "why_tests_cant": "all sizes and activity patterns", "anchors": ["opm/upscaling/RelPermUtils.cpp:ModelThickness", "opm/upscaling/RelPermUtils.cpp:calculateCellPressureGradients"]}
{"id": "C109", "title": "Relative permeability input check rejects exactly bad data and repairs the rest as documented", "statement": "sanityCheckInput throws exactly when a region number is outside 0..1000, a porosity outside 0..1 or a permeability negative; otherwise cells of region 0 get zero porosity and minimal permeability and other cells get porosity raised to the minimum and PERMX clipped to the limits; PERMY and PERMZ of rock cells are not clipped.", "quantifier": "every input arrays of consistent length", "why_tests_cant": "all inputs", "anchors": ["opm/upscaling/RelPermUtils.cpp:sanityCheckInput"]}
{"id": "C110", "title": "Steady-state mobilities have bounded contrast", "statement": "The phase mobilities handed to the single-phase upscaler by upscaleSteadyState are at least the cell's own mobility and the relative permeability threshold over the viscosity, and any two entries, in any cells, differ at most by the configured contrast; entries above the threshold are unchanged.", "quantifier": "every cell mobility field, scalar or diagonal, threshold, viscosity and contrast", "why_tests_cant": "all fields", "anchors": ["opm/upscaling/SteadyStateUpscalerImplicit_impl.hpp:maxMobility", "opm/upscaling/SteadyStateUpscalerImplicit_impl.hpp:thresholdMobility", "opm/upscaling/SteadyStateUpscalerImplicit_impl.hpp:upscaleSteadyState"]}
{"id": "C111", "title": "Reported upscaled saturation is the pore volume mean", "statement": "lastSaturationUpscaled returns the pore-volume weighted mean of the final saturation state and lies between its extremes.", "quantifier": "every grid with positive pore volumes and every saturation state", "why_tests_cant": "all grids", "anchors": ["opm/upscaling/SteadyStateUpscalerImplicit_impl.hpp:lastSaturationUpscaled"]}
{"id": "C112", "title": "Transmissibilities and gravity fluxes of the implicit model", "statement": "initGravityTrans gives every face the inverse of the sum of the inverse half transmissibilities of its half faces, so h1*h2/(h1+h2) for an interior face; the half face table maps each face side to the half face of that cell; the gravity flux of an interior face is the density difference times the transmissibility times the difference of the two cells' gravity potentials to the face, and zero without gravity.", "quantifier": "every well-formed grid, half transmissibility array and gravity field", "why_tests_cant": "all topologies", "anchors": ["opm/core/transport/implicit/SinglePointUpwindTwoPhase.hpp:initGravityTrans", "opm/core/transport/implicit/SinglePointUpwindTwoPhase.hpp:computeStaticGravity", "opm/core/transport/implicit/SinglePointUpwindTwoPhase.hpp:gravityFlux"]}
{"id": "C113", "title": "The inner product for tensor mobilities", "statement": "The evaluator for anisotropic relative permeability builds the documented formula with the total mobility tensor times K, is exact for linear pressure, gives the gravity flux N sum(rho lambda) K g, and is symmetric or positive (semi)definite when the total mobility times K is. Finding: symmetric permeability and symmetric mobility tensors do not make it symmetric, although the linear solver behind it assumes symmetry.", "quantifier": "every cell, permeability tensor, set of phases with mobility tensors and contents of the work arrays", "why_tests_cant": "all geometries and tensors", "anchors": ["opm/porsol/mimetic/MimeticIPAnisoRelpermEvaluator.hpp:getInverseMatrix", "opm/porsol/mimetic/MimeticIPAnisoRelpermEvaluator.hpp:computeDynamicParams", "opm/porsol/mimetic/MimeticIPAnisoRelpermEvaluator.hpp:gravityFlux"]}
{"id": "C114", "title": "A flow problem without prescribed pressure is regularised correctly", "statement": "The solver detects exactly the problems without any prescribed pressure and leaves the others alone. On a connected grid without prescribed pressure the regularised matrix is positive definite, so the solver has a unique answer; that answer solves the original equations exactly when the sources equal the prescribed outfluxes, and then its first contact pressure is zero.", "quantifier": "every connected grid with Neumann and periodic boundaries, symmetric positive definite local matrices and sources", "why_tests_cant": "the singular system must be made regular for every grid, and the answer must stay the right one", "anchors": ["opm/porsol/mimetic/IncompFlowSolverHybrid.hpp: assembleDynamic do_regularization_, solveLinearSystem, solveLinearSystemAMG"]}
{"id": "C115", "title": "The flow solver reproduces linear pressure exactly", "statement": "In a homogeneous medium without sources and gravity, with boundary data taken from a linear pressure field, the assembled system has a solution and every solution has exactly the fluxes of that field on every face of every cell; when every cell is connected to a prescribed pressure the cell and contact pressures are exact as well; without prescribed pressure the regularised system gives the exact fluxes too.", "quantifier": "every grid of closed cells with outward area vectors, permeability tensor, mobility, linear field and mix of boundary conditions", "why_tests_cant": "a test would try a few grids; upscaling relies on it for every cell shape", "anchors": ["opm/porsol/mimetic/IncompFlowSolverHybrid.hpp: solve", "opm/porsol/mimetic/MimeticIPEvaluator.hpp: buildStaticContrib, getInverseMatrix"]}
{"id": "C116", "title": "The legacy permeability file determines the permeability of every cell", "statement": "writeSintefLegacyFormat after initialisation from a deck writes the porosities and, for every cell, as many permeability values as the kind of permeability needs; the full tensor of the cell can be read back from these lines. Finding: after uniform initialisation the kind is still invalid and writing throws.", "quantifier": "every accepted deck and active-cell map", "why_tests_cant": "all keyword subsets and data", "anchors": ["opm/porsol/common/ReservoirPropertyCommon_impl.hpp: writeSintefLegacyFormat"]}
{"id": "C117", "title": "Rock files are read row by row after their comment header", "statement": "Reading a rock file skips exactly its leading lines that begin with - or #, throws if such a line is not ended, then reads complete rows of four numbers and drops an incomplete last one, and throws on a malformed number; the table columns are the file's, with the water relative permeability of the first row and the oil relative permeability of the last set to zero, and the saturation limits are the first and last saturation. Anisotropic tables are transposed the same way. The rock list skips empty lines. Findings: a line with a single leading - is skipped as a comment although only -- is documented; an empty table is undefined behaviour; a rock list with fewer names than announced never terminates.", "quantifier": "every file content", "why_tests_cant": "all files", "anchors": ["opm/porsol/common/RockJfunc.hpp: readStatoilFormat", "opm/porsol/common/RockAnisotropicRelperm.hpp: readAnisoFormat", "opm/porsol/common/ReservoirPropertyCommon_impl.hpp: readRocks"]}
{"id": "C118", "title": "Constraints are ordered consistently", "statement": "MPC::Less is a strict weak order (irreflexive, transitive, with transitive incomparability), both with and without compareSlaveDofOnly and including null pointers; with compareSlaveDofOnly two constraints are equivalent exactly if they have the same slave.", "quantifier": "all constraints, all flags", "why_tests_cant": "an ordered container misbehaves on any violating triple; the triples are unbounded", "anchors": ["opm/elasticity/mpc.cpp: operator<, MPC::Less::operator()"]}
{"id": "C119", "title": "Boundary conditions accumulate", "statement": "updateFixedNode holds the directions held before together with the new ones, takes the new values in the new directions, keeps the old ones elsewhere and changes no other node; addMPC keeps the first constraint given for a degree of freedom and ignores constraints on fixed ones; addMaster keeps exactly the masters with coefficients larger than the tolerance, in order.", "quantifier": "all sequences of calls", "why_tests_cant": "any history of calls", "anchors": ["opm/elasticity/asmhandler_impl.hpp: updateFixedNode, addMPC", "opm/elasticity/mpc.hh: addMaster"]}
{"id": "C120", "title": "Higher order shape functions interpolate polynomials", "statement": "LagrangeCardinalFunction over distinct nodes is 1 at its node and 0 at the others, and the functions of n nodes reproduce every polynomial of degree below n; PNShapeFunctionSet lists the tensor products with the first index running fastest; legendre and legendreDerivative return a function and its derivative, solving Legendre's differential equation with value 1 at 1, for every degree from 1 on (degree 0 writes outside its table); the Lobatto grid starts at 0, ends at 1, is {0,1} and {0,1/2,1} for two and three points, and every interior point of a larger grid is one at which the Newton step was below 1e-15.", "quantifier": "all node sets, points, polynomials and degrees", "why_tests_cant": "all real points and polynomials", "anchors": ["opm/elasticity/shapefunctions.hpp: LagrangeCardinalFunction, TensorProductFunction, PNShapeFunctionSet"]}
{"id": "C121", "title": "The upscaled elastic stiffness is symmetric, nonnegative and below the volume average", "statement": "For every grid, constraint set without cycles, zero prescribed displacements and symmetric positive semidefinite materials: the six load cases of the elastic problem always have a solution; whichever solutions the linear solver returns, in whichever order the cells are worked on, the matrix of average stresses is the same; it is symmetric (also after small entries are cleared), positive semidefinite, at most the volume average of the material matrices (Voigt bound), and entry (i,j) is the average minus the energy of the displacements u_i A u_j / volume.", "quantifier": "every grid, cell order, material distribution, constraint set, solution returned by the solver", "why_tests_cant": "all grids and reals", "anchors": ["opm/elasticity/elasticity_upscale_impl.hpp: assemble, averageStress", "examples/upscale_elasticity.cpp: run"]}
{"id": "C122", "title": "Assembling the elastic problem depends on nothing assembled before", "statement": "After any sequence of calls of assemble, a further call with the matrix flag leaves exactly the sum over all cells of the element matrices mapped through the constraints, a call with a load case exactly the sum of the element loads of that unit strain; a call without the flag leaves the matrix alone and a call with a negative load case the loads.", "quantifier": "every history of calls, every cell order", "why_tests_cant": "history dependent", "anchors": ["opm/elasticity/elasticity_upscale_impl.hpp: assemble"]}
{"id": "C123", "title": "Materials are created from parameters and files as documented", "statement": "Parameter lists of length 1, 2, 3 give isotropic materials (missing ratio and density are 0), 4 to 6 diagonal orthotropic ones whose missing shear moduli repeat the previous one, 9 and 21 symmetric orthotropic ones, any other length none; a file gives an isotropic material with ratio in [0,1/2] or a symmetric orthotropic one, and an unknown keyword is refused. Finding: the ratio 1/2 (no shear stiffness) is accepted although its matrix is then refused and zero is used; no orthotropic material keeps a density.", "quantifier": "all parameter lists and files", "why_tests_cant": "all inputs", "anchors": ["opm/elasticity/material.cpp: Material::create"]}
{"id": "C124", "title": "Chunked loops visit every task exactly once", "statement": "For every number of tasks and every positive number of chunks the half-open index ranges returned by LoggerHelper::group, one after the other, are exactly 0,1,..,tasks-1 (no task is skipped, repeated or reordered), and chunk sizes differ by at most one.", "quantifier": "all task counts and chunk counts", "why_tests_cant": "all sizes", "anchors": ["opm/elasticity/logutils.hpp: LoggerHelper"]}
{"id": "C125", "title": "Schur operator and block preconditioner of the mortar solver", "statement": "With an inner operator that multiplies by W, the multiplier operator computes y+alpha B^T W B x; the dense multiplier matrix built column by column, in any order of the columns, is B^T W B with entries up to 1e-14 dropped, and cannot be built when there are more multipliers than displacement unknowns; the diagonal approximation holds the sum of the absolute off-diagonal entries divided by the diagonal; the block preconditioner solves the block triangular system [Apre B; 0 P] (block diagonal in symmetric mode) exactly when its two solvers are exact, and preparing it touches the displacement part only.", "quantifier": "all matrices, vectors and orders", "why_tests_cant": "all sizes and reals", "anchors": ["opm/elasticity/mortar_schur.hpp: MortarBlockEvaluator", "opm/elasticity/mortar_schur_precond.hpp: MortarSchurPre", "opm/elasticity/elasticity_upscale_impl.hpp: applyMortarBlock, setupSolvers"]}
{"id": "C126", "title": "Corner pickers order four vertices", "statement": "For every list of four vertices and every sorting routine, however it orders equal keys, the four corner pickers of a boundary face return each vertex exactly once; both left picks have x coordinates at most those of both right picks, and within each side the lower pick is not above the upper one.", "quantifier": "all vertex lists, all stable or unstable sorts", "why_tests_cant": "ties and every arrangement", "anchors": ["opm/elasticity/boundarygrid.cpp: minXminY, maxXminY, maxXmaxY, minXmaxY", "opm/elasticity/boundarygrid.hh: VertexLess"]}
{"id": "C127", "title": "Geometry of a boundary quad", "statement": "The geometry object of a boundary quad maps the corners of the reference square to the quad's corners in Dune's order and is bilinear; its transposed Jacobian is the exact derivative (the remainder is the product of the increments times the distance from a parallelogram); whenever the Newton iteration of the inverse map stops, the point it returns maps to the given point up to 5e-21 times that distance, and for parallelograms it stops after at most two iterations with the exact preimage; the integration element is the absolute Jacobian determinant; the volume is right for axis-parallel rectangles.", "quantifier": "all corners and points", "why_tests_cant": "all reals", "anchors": ["opm/elasticity/boundarygrid.hh: HexGeometry"]}
{"id": "C128", "title": "Corners are fixed and opposite faces tied", "statement": "For every grid, tolerance and bounding box, fixing the corners holds exactly the vertices within the tolerance (sum of coordinate differences) of one of the eight box corners at zero in all directions and changes no other node; a line fix holds exactly the vertices near the line. With periodic conditions every vertex on a maximal face that is not fixed and not yet constrained is tied, in each direction, to the corners of the quad of the opposite face it was located in, or to the vertex it coincides with, the first of the x, y, z faces deciding; no other dof gets a constraint and existing ones are kept; the weights of a tie sum to one and reproduce every affine function of the face coordinates. When a vertex of a maximal face is located nowhere on the opposite face the assertion fails (without assertions it stays unconstrained). The mortar variant ties the top to the bottom face in the same way.", "quantifier": "all grids, tolerances, fixed maps and constraint maps", "why_tests_cant": "every vertex arrangement and order", "anchors": ["opm/elasticity/elasticity_upscale_impl.hpp: isOnPlane, isOnLine, isOnPoint, fixPoint, fixLine, fixCorners, addMPC, periodicPlane, periodicBCs, periodicBCsMortar"]}
{"id": "C129", "title": "Boundary faces are reconstructed", "statement": "For every grid, direction and coordinate, the vertices extracted from a face are exactly those within the tolerance of the plane, in increasing index order, with their two other coordinates; the quads extracted from a face are exactly those of the cells with all four corners of that side on the plane, in cell order, each with the four corner vertices of that cell face once and correctly oriented, except that quads with bounding box area below 1e-7 are left out of the face grid; they are also grouped into pillars ordered from left to right, every quad in exactly one, all within 1e-7 of the first quad of their pillar.", "quantifier": "all grids and sorting routines", "why_tests_cant": "every cell arrangement", "anchors": ["opm/elasticity/elasticity_upscale_impl.hpp: extractFace, extractMasterFace"]}
{"id": "C130", "title": "Mortar coupling matrix has the stated entries", "statement": "For faces with at least as many pillars as interface elements, the coupling matrix is assembled without access outside its sparsity pattern, and its entry for an equation and a multiplier is the sum of the element matrix entries over all quads of one face minus those of the opposite face, at the corners and multiplier nodes that stand for them; the two pairs of faces use disjoint multiplier columns. A face with fewer pillars than interface elements is never assembled successfully. Finding: a constrained corner contributes the whole entry to each of its masters; this is the transformed coupling exactly when all weights are one.", "quantifier": "all meshes, constraints, numberings and element matrices", "why_tests_cant": "all sparsity patterns", "anchors": ["opm/elasticity/elasticity_upscale_impl.hpp: addBBlockMortar, assembleBBlockMortar, periodicBCsMortar"]}
{"id": "C131", "title": "Mortar element matrices are the quadrature of basis products", "statement": "For every quadrature rule, face quad, interface element and multiplier basis, an element matrix is returned only when all quadrature points are located on the interface element (up to 1e-4 above), and its entry (i,j) is then the weighted sum over the points of the i-th face function times the j-th multiplier function at the located point times the area element; the sum over i is the quadrature of the multiplier function alone.", "quantifier": "all rules, quads and bases", "why_tests_cant": "all reals", "anchors": ["opm/elasticity/elasticity_upscale_impl.hpp: assembleBBlockMortar"]}
{"id": "C132", "title": "Elastic moduli are converted correctly and auxetic materials refused", "statement": "Young's modulus and Poisson's ratio are taken from the deck as given, or from Lame's parameter and the shear modulus, or from bulk and shear modulus, in this order of preference, and then satisfy the isotropic relations for every entry; if any Poisson's ratio is negative loading fails, otherwise it goes on; PERMX and PORO are the last resort and are not checked; a deck without any of these pairs is refused. With a positive scale all moduli are multiplied by the same factor, such that the least is the scale, and the unscaled least is remembered; without it they are unchanged.", "quantifier": "all decks, all moduli with nonzero denominators", "why_tests_cant": "all reals and array lengths", "anchors": ["opm/elasticity/elasticity_upscale_impl.hpp: loadMaterialsFromGrid"]}
{"id": "C133", "title": "Rock lists assign materials and volume fractions", "statement": "The materials of a rock list are read from the files it names, in order; cells get them cyclically (uniform grid) or by region number, and the fraction of every material is the volume of its cells divided by the total, which is summed with single precision rounding: with relative rounding error u and n materials the fractions are nonnegative and sum to a number between (1+u)^-n and (1-u)^-n; a single material has fraction one. Loading never succeeds if the deck has no region numbers, or one is below 1 or above the number of materials, or there are cells but no material. With a positive scale all moduli are multiplied by the scale divided by the least modulus or 1e10, whichever is less, and this requires all materials to be isotropic (otherwise undefined behaviour). Finding: no density is computed, although the driver reads it.", "quantifier": "all rock lists, grids and rounding functions", "why_tests_cant": "all volumes and rounding errors", "anchors": ["opm/elasticity/elasticity_upscale_impl.hpp: loadMaterialsFromRocklist"]}
{"id": "C134", "title": "Statistics per rock type partition the grid", "statement": "upscale_avg lists exactly the rock types that have an active cell, in increasing order, each with the volume, number of cells and active cells, mean porosity, porosity variance (volume-weighted mean squared deviation, which is nonnegative and the mean square minus the squared mean), arithmetic and harmonic permeability of its cells; the volumes and active cells of the listed types add up to those of the grid, and the volume fractions are positive and add up to one if no cell has a positive volume up to 1e-10. A rock type outside 0..1000 ends the program.", "quantifier": "all grids, rock type arrays and properties", "why_tests_cant": "all cell numbers and rock types", "anchors": ["examples/upscale_avg.cpp:main"]}
{"id": "C135", "title": "Dip averages cover exactly the cells above the volume limit", "statement": "grdecldips lists exactly the cells whose volume exceeds the limit, with their dips and volumes; listed and ignored cells add up to the number of cells of the grid; the average is the mean of the listed dips and lies within their range; with no listed cell it is not a finite number.", "quantifier": "all grid sizes, volumes, dips and limits", "why_tests_cant": "all grids", "anchors": ["examples/grdecldips.cpp:main"]}
{"id": "C136", "title": "Random subsample windows lie in the requested box", "statement": "cpchop: if the box is at least as large as the window and the draws are within the ranges of the generators, the window handed to the chopper has the requested size, lies in [imin,imax] x [jmin,jmax], does not start before zmin and does not end after zmax, except that a window less than 1e-6 shorter than the box may reach at most 1e-6 beyond zmax. Findings: without random placement the window starts at index 0 whatever imin and jmin are; a window longer than the box is undefined behaviour (empty integer distribution).", "quantifier": "all boxes, window sizes and draws", "why_tests_cant": "all draws and sizes", "anchors": ["examples/cpchop.cpp:main"]}
{"id": "C137", "title": "Rows of the subsample table belong to one subsample", "statement": "cpchop: if every chop succeeds and the data are proper, the run is defined; the number of printed rows is the number of subsamples that finish; for every column the entries are, in order, the values of exactly the subsamples whose computation got as far as that column. If every subsample finishes or fails before its first entry, the printed table has one row per finished subsample, in order, consisting of that subsample's own values (porosity, permeabilities, end points, capillary pressures, dip, azimuth, rock shares). Findings: after a later failure the rows mix values of different subsamples; with NTG but without upscaling the printed table reads vectors that are never filled.", "quantifier": "all option sets, rock tables and sequences of subsamples with arbitrary failures", "why_tests_cant": "all failure histories", "anchors": ["examples/cpchop.cpp:main"]}
{"id": "C138", "title": "Subsample end points are pore volume averages within the rocks' limits", "statement": "cpchop: Swir and Swor of a subsample are the averages of the end points of its cells' rocks weighted with pore volume (cells without rock do not count), so a <= Swir <= Swor <= b whenever all rocks have end points in order within [a,b]. The capillary pressure curve is evaluated with the subsample's own Swir and Swor and with the least and greatest capillary pressure over the cells of all subsamples searched so far (finding: the limits are not reset between subsamples).", "quantifier": "all rocks, cells and sequences of subsamples", "why_tests_cant": "all cells and histories", "anchors": ["examples/cpchop.cpp:main"]}
{"id": "C139", "title": "Rock shares of a subsample are fractions that add up to one", "statement": "cpchop: if all cells have SATNUM >= 1 and their volumes do not add up to zero, entry t of the row is the volume of the cells with SATNUM t divided by the total volume, the row has as many entries as the largest SATNUM seen so far, its entries add up to one and, for nonnegative volumes, lie in [0,1].", "quantifier": "all cells and earlier subsamples", "why_tests_cant": "all SATNUM sequences", "anchors": ["examples/cpchop.cpp:main"]}
{"id": "C140", "title": "Depth trend windows", "statement": "cpchop_depthtrend: with a positive resolution the windows start at exactly the multiples k*zresolution with k*zresolution <= zmax-zlen; if all windows can be chopped and no porosity fails, the table has one row per window whose permeability is computed, in order, with its depth, porosity and diagonal permeabilities. Findings: the loop starts at depth 0, not zmin, and a window length up to the top of the grid makes the first chop throw and ends the program; a resolution that is not positive never terminates.", "quantifier": "all depths, lengths and resolutions", "why_tests_cant": "unbounded number of windows", "anchors": ["examples/cpchop_depthtrend.cpp:main"]}
{"id": "C141", "title": "Variogram pairs", "statement": "exp_variogram: every row of the table belongs to one pair of windows of the requested size, with the Euclidean distance of the two starting points (same depth for horizontal, same column for vertical pairs) and the absolute differences of porosity and diagonal permeabilities; there is one row per pair or no table at all; with draws in the generators' ranges the result depends only on windows inside the box; lengths that are not positive are refused.", "quantifier": "all boxes, draws and upscaling results", "why_tests_cant": "all draws", "anchors": ["examples/exp_variogram.cpp:main"]}
{"id": "C142", "title": "Capillary mobility of a cell", "statement": "Implicit capillarity: the mobility used in a cell is the two phase mobilities in series, m1*m2/(m1+m2), raised to 1e-10 if smaller; it lies between 1e-10 and max(min(m1,m2),1e-10) and does not depend on the order of the phases. For tensor mobilities it is M1 (M1+M2)^-1 M2 with the same floor on the diagonal; for symmetric phase mobilities with an invertible sum it is symmetric, and for diagonal ones it is the scalar rule per axis. Only phase 0 carries the mobility. Finding: in a cell where both phases are immobile the value is 0/0.", "quantifier": "all scalar and tensor mobilities", "why_tests_cant": "all real values", "anchors": ["opm/porsol/euler/ImplicitCapillarity_impl.hpp"]}
{"id": "C143", "title": "Capillary pressure problem", "statement": "Implicit capillarity: the boundary conditions handed to the pressure solver have the types of the flow conditions, zero values on periodic faces and unchanged values elsewhere; the source of a cell is minus the sum of injection and face terms of the transport residual without capillary terms, whatever the capillary pressure function is; its sum is what crosses the walls minus the injection, so it is zero when nothing is injected and every face leads to another cell; with viscous and gravity terms switched off it is minus the net injection. Finding: Dirichlet and Neumann values meant for the flow pressure are reused for capillary pressure.", "quantifier": "all grids, conditions and saturations", "why_tests_cant": "all grids and states", "anchors": ["opm/porsol/euler/ImplicitCapillarity_impl.hpp", "opm/porsol/euler/EulerUpstreamResidual_impl.hpp"]}
{"id": "C144", "title": "Saturation after an implicit capillary step", "statement": "Implicit capillarity: a step that succeeds replaces the saturations by relax*new+(1-relax)*old, where new is the inverse capillary pressure of the solved pressure shifted by one constant for all cells, followed by the check-and-clamp; the root finder starts from the difference of the greatest and the least pressure; without clamping the water volume changes by relax times the remaining mismatch, so it is conserved up to the root finder's tolerance; saturations stay in the range of the inverse functions. Cells with two immobile phases make the step undefined. Findings: an empty grid is undefined behaviour, and the saturations used are those of the last evaluation of the root finder, not necessarily of the root it returned.", "quantifier": "all grids, pressure solutions and root finder results", "why_tests_cant": "all states", "anchors": ["opm/porsol/euler/ImplicitCapillarity_impl.hpp"]}
{"id": "C145", "title": "Vector norms", "statement": "maxNorm, sum norm and Euclidean norm of a vector are the greatest absolute value (0 for the empty vector), the sum of absolute values and the square root of the sum of squares; each is nonnegative, zero only for zero vectors, homogeneous and satisfies the triangle inequality; max <= Euclid <= sum <= n*max.", "quantifier": "all vectors of all lengths", "why_tests_cant": "unbounded length", "anchors": ["opm/core/transport/implicit/NormSupport.hpp"]}
{"id": "C146", "title": "Upscaled relative permeability from phase permeability", "statement": "The implicit steady state upscaler computes the relative permeability tensor of a phase as viscosity times effective phase mobility times the inverse of the upscaled absolute permeability: multiplied with the absolute permeability it gives viscosity times the phase mobility, and a phase mobility lambda/mu*K gives lambda on the diagonal and zero elsewhere. Finding: the inversion divides by the last diagonal entry, so an invertible absolute permeability with K(2,2)=0 is undefined behaviour, like a singular one.", "quantifier": "all 3x3 tensors with an invertible absolute permeability", "why_tests_cant": "all real tensors", "anchors": ["opm/upscaling/SteadyStateUpscalerImplicit_impl.hpp"]}
{"id": "C147", "title": "Time parameters of the implicit upscaler", "statement": "Initial and maximal step size given as parameters are read in the documented units; with the parameters omitted the stored value is multiplied by the unit at every initialisation (finding: the default of 10 days becomes 10*day^2 seconds at the second initialisation), and a later initialisation that gives the parameter resets the value.", "quantifier": "all sequences of initialisations", "why_tests_cant": "all histories", "anchors": ["opm/upscaling/SteadyStateUpscalerImplicit_impl.hpp"]}
{"id": "C148", "title": "Command line and rock files of the upscaling programs", "statement": "upscale_cap and upscale_cond: leading option/value pairs with known names set those options (the last value wins), the next argument is the grid file and the remaining ones are the rock files; an unknown option or missing file names end the program with an error. A known option as the last argument reads past the arguments (finding). With as many rock files as rock types the i-th file belongs to type i; a single file is used for every type; any other number is an error.", "quantifier": "all argument lists", "why_tests_cant": "unbounded argument lists", "anchors": ["examples/upscale_cap.cpp", "examples/upscale_cond.cpp"]}
{"id": "C149", "title": "Check of the grid input", "statement": "upscale_cap and upscale_cond accept a model exactly when every cell has a rock type between 0 and 1000, a porosity between 0 and 1 and a nonnegative permeability; accepted cells with rock type 0 get porosity 0 and the least permeability, other cells have their porosity raised to the least porosity. upscale_cap raises permeabilities to the least permeability; upscale_cond replaces only permeabilities equal to zero (finding).", "quantifier": "all grids", "why_tests_cant": "unbounded number of cells", "anchors": ["examples/upscale_cap.cpp", "examples/upscale_cond.cpp"]}
{"id": "C150", "title": "Capillary pressure limits and saturation end points", "statement": "The limits used by upscale_cap and upscale_cond are the least and greatest capillary pressure of the rock curves over the cells with rock, scaled by the Leverett factor of each cell; the irreducible and residual end points are the pore volume averages of the cells' end points and lie in [0,1] in order; pore volumes per cell and per rock type are exact sums. A model without rock is an error.", "quantifier": "all grids and rock curves", "why_tests_cant": "unbounded number of cells", "anchors": ["examples/upscale_cap.cpp", "examples/upscale_cond.cpp"]}
{"id": "C151", "title": "Tabulation of saturation against capillary pressure", "statement": "The adaptive table used by upscale_cap, upscale_cond and the relative permeability upscaler holds exact values at increasing pressures, contains both end pressures, and, for a monotone saturation, neighbouring values differ by at most the requested part of the saturation range; for a saturation that varies little over any interval of length d the number of evaluations is bounded by 3+2*(range/d). Findings: a saturation with a jump larger than that part makes the program loop forever, and equal end points give an empty table.", "quantifier": "all saturation functions, ranges and resolutions", "why_tests_cant": "unbounded number of rounds", "anchors": ["examples/upscale_cap.cpp", "examples/upscale_cond.cpp", "opm/upscaling/RelPermUtils.cpp"]}
{"id": "C152", "title": "Saturations of the model and of its rock types", "statement": "upscale_cap: at each pressure the model saturation times the pore volume is the sum of the water volumes of its cells, and equals the sum over rock types of their saturation times their pore volume; rock types without pore volume report 0; saturations stay within the end points of the rock curves and do not increase with pressure. Finding: cells of volume at most 1e-10 count in the pore volume but not in the water volume.", "quantifier": "all grids, rock curves and pressures", "why_tests_cant": "unbounded number of cells", "anchors": ["examples/upscale_cap.cpp"]}
{"id": "C153", "title": "Table written by upscale_cap", "statement": "Without interpolation the table lists pressure, saturation and rock saturations of every tabulated point in order; with n>=2 points it has n rows at equally spaced saturations from the least to the greatest tabulated one, pressures stay within the limits, and a row at a tabulated saturation repeats the tabulated values. One point divides zero by zero, and interpolating an empty table is undefined (findings).", "quantifier": "all tables and point numbers", "why_tests_cant": "unbounded tables", "anchors": ["examples/upscale_cap.cpp"]}
{"id": "C154", "title": "Archie resistivity of the cells", "statement": "upscale_cond: cells of a mud type have the mud resistivity; other cells have a*rw/(poro^m*sw^n), cut off at the greatest resistivity, which is also the value of a dry cell; the value is positive, at most the cutoff, and does not increase with water saturation; the exponents are those given for the rock type, or else the global ones; a nonpositive water resistivity is an error. The conductivities handed to the upscaler are the reciprocals in cell order.", "quantifier": "all grids, rock types, exponents and saturations", "why_tests_cant": "all real parameters", "anchors": ["examples/upscale_cond.cpp"]}
{"id": "C155", "title": "Resistivity table on several processes", "statement": "upscale_cond evaluates the pressure points at equally spaced saturations between the end points; for every schedule of the processes the run ends, and the master's table holds at each point the saturation and the inverse upscaled conductivity of that point, the same as on one process. One point is undefined behaviour. Finding: processes also upscale the points of other processes with left-over conductivities (the results are thrown away).", "quantifier": "all numbers of processes and points and all schedules", "why_tests_cant": "all interleavings", "anchors": ["examples/upscale_cond.cpp"]}
{"id": "C156", "title": "Grid input of the viscous limit upscaler", "statement": "upscale_relpermvisc accepts a model exactly when the permeability contrast is positive and every cell has a rock type between 0 and 1000, a porosity between 0 and 1 and nonnegative permeabilities (all three with anisotropic input); an accepted rock cell has its porosity raised to the least porosity and its x permeability brought into [minPerm, maxPerm]; a cell without rock gets porosity 0 and the least permeability. The y and z permeabilities are never brought into range (finding).", "quantifier": "all grids and limits with minPerm <= maxPerm", "why_tests_cant": "unbounded number of cells", "anchors": ["examples/upscale_relpermvisc.cpp"]}
{"id": "C157", "title": "Rock files of the viscous limit upscaler", "statement": "Isotropic input takes one file per rock type or one for all, and loads succeed exactly when every file's water and oil columns are strictly monotone in opposite directions; anisotropic input takes a water and an oil file per rock type, or one pair for all, and needs strictly monotone columns 3, 4 and 5; rock type i gets the curves of its own files. Opposite directions are not required of anisotropic files (finding).", "quantifier": "all file lists and file contents", "why_tests_cant": "unbounded number of rock types", "anchors": ["examples/upscale_relpermvisc.cpp"]}
{"id": "C158", "title": "End points and pore volumes of the viscous limit upscaler", "statement": "Pore volume, volume and the pore volumes of the rock types are exact sums over the rock cells; the saturation end points are the pore volume averages of the end points of the water curves and lie in [0,1] in order; the least permeability is the greatest x permeability over the contrast, or minPerm if larger. A model without pore volume divides zero by zero (finding).", "quantifier": "all grids and rock curves", "why_tests_cant": "unbounded number of cells", "anchors": ["examples/upscale_relpermvisc.cpp"]}
{"id": "C159", "title": "Flow ratio tables", "statement": "For every rock type the table of water/oil flow ratios has 1000 equally spaced saturations between the end points, moved inwards to where a relative permeability reaches its lower limit; each entry is the ratio of the mobilities of water and oil at that saturation, positive and nondecreasing in saturation. The range of all rock types is the least and greatest tabulated ratio. Finding: the z curve is filled with the y values, so the z relative permeabilities are ignored.", "quantifier": "all rock curves and positive viscosities", "why_tests_cant": "real valued curves", "anchors": ["examples/upscale_relpermvisc.cpp"]}
{"id": "C160", "title": "Saturation at a flow ratio", "statement": "At a flow ratio the model saturation times the pore volume is the sum over the rock cells of the saturation of the cell's rock type (mean of the three directional curves with anisotropic input) times its pore volume; it stays between the end points, does not decrease with the ratio, and a finished tabulation holds exact values at increasing ratios including both ends, neighbours differing by at most 1/500 of the saturation range.", "quantifier": "all grids, curves and ratios", "why_tests_cant": "unbounded number of cells and rounds", "anchors": ["examples/upscale_relpermvisc.cpp"]}
{"id": "C161", "title": "Phase permeabilities of the cells", "statement": "For a phase every cell gets relative permeability at its rock type's saturation times permeability, per direction, raised to the greatest such value over the contrast or to minPerm; hence all values are at least minPerm and their ratios at most the contrast; water values do not decrease and oil values do not increase with saturation.", "quantifier": "all grids, saturations, phases and contrasts", "why_tests_cant": "unbounded number of cells", "anchors": ["examples/upscale_relpermvisc.cpp"]}
{"id": "C162", "title": "Viscous limit upscaling on several processes", "statement": "For every number of processes and every schedule the collection of results ends after at most 4 transitions per point, is never stuck, and leaves on the master for every point the saturation and both phase permeability tensors computed for that point, the same as on one process; the elements are stored in the order xx yy zz yz xz xy zy zx yx.", "quantifier": "all numbers of processes and points and all schedules", "why_tests_cant": "all interleavings", "anchors": ["examples/upscale_relpermvisc.cpp"]}
{"id": "C163", "title": "Relative permeabilities and the table of the viscous limit upscaler", "statement": "The relative permeability of a point is the phase tensor times the inverse of the single phase tensor, so multiplying back recovers the phase tensor and a phase tensor that is a multiple c of it gives c on the diagonal and 0 elsewhere; the shared helper additionally sets the smaller end of every column to zero, or stops if it is not below the threshold; the table lists ratio, saturation and the elements of every point in order, or at equally spaced saturations with interpolation. Findings: the printed table ends after the first saturation equal to zero, and with interpolation the ratio column is a saturation-of-ratio curve applied to saturations.", "quantifier": "all tensors, tables and point numbers", "why_tests_cant": "unbounded tables", "anchors": ["examples/upscale_relpermvisc.cpp", "opm/upscaling/RelPermUtils.cpp"]}
{"id": "C164", "title": "Setup of the implicit transport solver", "statement": "For every grid and every set of boundary conditions whose periodic boundary ids come in pairs, setting up the implicit transport solver succeeds and lists exactly the periodic half faces in order, each with its own cell, the cell on the other side, its face and the partner's face, and exactly the open (neither periodic nor closed) half faces in order, each with its cell and the fractional flow of its boundary saturation, a number in [0,1], and one minus it; a periodic half face's partner is listed too, with cells and faces exchanged. The face of every periodic half face has one cell and one missing side, as the code asserts. The third assertion, that a periodic half face connects two different cells, fails for a grid one cell wide in a periodic direction (refuted).", "quantifier": "all grids, boundary conditions and mobilities", "why_tests_cant": "unbounded grids", "anchors": ["opm/porsol/euler/EulerUpstreamImplicit_impl.hpp: initObj, transportSolve"]}
{"id": "C165", "title": "Face fluxes and sources of the implicit transport solver", "statement": "If what leaves through one half face of a face enters through the other, the flux stored for a face, counted outwards from either cell, is the flux out of that cell's half face; the sources are the open half faces in order, with their cells, the inflow through them and their fractional flow; with no flow through closed boundaries the fluxes of the connections of every cell, periodic ones included, add up to the net outflow computed by the pressure solver plus the sources in the cell, so for a pressure solution that conserves mass the transport solver sees a conservative flux field. The face flux buffer has one entry per half face: a grid with more faces than half faces would be written out of bounds.", "quantifier": "all grids, boundary conditions and half face fluxes", "why_tests_cant": "unbounded grids", "anchors": ["opm/porsol/euler/EulerUpstreamImplicit_impl.hpp: initObj, transportSolve"]}
{"id": "C166", "title": "Periodic half faces of the implicit transport solver", "statement": "After the periodic neighbours have been filled into the table from faces to half faces, the face of every periodic half face has that half face on its own side and the partner half face on the other side; all other entries are unchanged.", "quantifier": "all grids and boundary conditions", "why_tests_cant": "unbounded grids", "anchors": ["opm/core/transport/implicit/SinglePointUpwindTwoPhase.hpp: makefhfQPeriodic", "opm/porsol/euler/EulerUpstreamImplicit_impl.hpp"]}
{"id": "C167", "title": "Command line of upscale_perm", "statement": "With options of known names, each followed by a value, and then the grid file, upscale_perm takes the last value given for every option, its default for the others, and the last argument as the grid file. An option of unknown name is skipped without notice, and the grid file is then taken from the wrong place: the argument used is one starting with a dash (finding). A command line whose last option takes the place of the grid file dereferences a null pointer (finding); no arguments, or an argument without a dash in the place of an option, end the program. These are all command lines.", "quantifier": "all argument lists", "why_tests_cant": "all argument lists", "anchors": ["examples/upscale_perm.cpp"]}
{"id": "C168", "title": "Choice of boundary conditions", "statement": "A boundary condition string is accepted exactly when it has one to three characters, at least one of them f, l or p; each kind of condition is computed exactly if its letter occurs in the string, whatever the other characters and the order.", "quantifier": "all strings", "why_tests_cant": "all strings", "anchors": ["examples/upscale_perm.cpp"]}
{"id": "C169", "title": "Results of upscale_perm", "statement": "For a complete grid description, upscale_perm reports for fixed and for periodic conditions the tensor a run for that condition alone computes, divided by one milli darcy, in whatever combination they are requested, and nothing for conditions not requested; the porosity is that of the periodic object if periodic conditions were requested, otherwise of the other one, and 0 without PORO; a failing component or a missing keyword makes the program fail. For linear conditions alone the result is that of a clipped grid; requested together with fixed conditions it is that of the unclipped grid of the fixed conditions, so the reported linear tensor depends on whether fixed conditions are requested as well (refuted).", "quantifier": "all decks, flags and upscaler results", "why_tests_cant": "all combinations with arbitrary component results", "anchors": ["examples/upscale_perm.cpp", "opm/upscaling/UpscalerBase_impl.hpp: init, setBoundaryConditionType"]}
{"id": "C170", "title": "Saturation range of the steady state program", "statement": "For a grid whose cells have distinct numbers within PORO and the rock numbers, the lowest and highest saturation upscale_steadystate_implicit uses are the means of the lower and upper end points of the rocks of the cells, weighted with pore volume, over the cells with a positive rock number; without pore volume they are 0/0. With non-negative volumes and porosities and end points in order they are in order and within the end points of the rocks, and all saturations used lie between them. The upper end points are not checked: one above 1 is accepted (refuted).", "quantifier": "all grids, rock numbers, porosities and end points", "why_tests_cant": "sums over grids of any size", "anchors": ["examples/upscale_steadystate_implicit.cpp: main, getExtremeSats"]}
{"id": "C171", "title": "Input of the steady state program", "statement": "upscale_steadystate_implicit accepts exactly the directions x, y, z and the conditions fixed/f, periodic/p, linear/l, which give 3, 6 and 9 tensor elements. The end points come from the files named by the first words of the non-empty lines after the number of rocks, in that order, each with a lower end point in [0,1]; the program goes on only if the greatest rock number of the deck (SATNUM, else ROCKTYPE, else 1 for all) is the number of rocks, and stops for a missing keyword, a bad choice, a missing list or a negative number. A list with fewer lines than rocks makes it read for ever, exactly if all rocks before are good (finding).", "quantifier": "all parameter strings, rock lists and decks", "why_tests_cant": "all strings and files of any length", "anchors": ["examples/upscale_steadystate_implicit.cpp: main, getExtremeSats"]}
{"id": "C172", "title": "Runs and tables of the steady state program", "statement": "upscale_steadystate_implicit makes one run for every pair of a saturation and a pressure drop, with the same pressure drops for all saturations. The first run of a saturation starts from the capillary limit if requested and found, else from the uniform saturation; every further one from the result of the last successful run of the same saturation, always after limiting. Entry (i,j) of the two tables holds the elements of the two tensors of run (i,j) in the order xx, yy, zz, yz, xz, xy, zy, zx, yx, also for runs that failed; with good input the program reaches this point. The tables are never printed (finding).", "quantifier": "all numbers of points, run results and tensors", "why_tests_cant": "histories of any length with arbitrary run results", "anchors": ["examples/upscale_steadystate_implicit.cpp: main", "opm/upscaling/RelPermUtils.cpp: getVoigtValue"]}
{"id": "C173", "title": "Command line of upscale_relperm", "statement": "upscale_relperm takes known options with values, then the grid file and at least one rock file; the last value of an option counts, the default otherwise. Fluids are exactly ow, wo, go and og; the first letter of bc decides: f for fixed with 3 tensor elements, l for linear and p for periodic with 9. Any other value, an unknown option or a missing file is refused; a last option without value is undefined behaviour.", "quantifier": "all argument lists and default options", "why_tests_cant": "argument lists of any length with any strings", "anchors": ["examples/upscale_relperm.cpp: main, parseCommandLine", "opm/upscaling/RelPermUtils.cpp: RelPermUpscaleHelper, setupBoundaryConditions"]}
{"id": "C174", "title": "Curves of upscale_relperm", "statement": "With as many rock files as rock types, or one for all, upscale_relperm stores for every rock type, in order, the inverted curve of columns (1, jFunctionCurve), or (2,1) for anisotropic input, and for direction d and phase p the curve of the documented columns of the file of that rock type: (1,2) and (1,3) for two phases, (1, relPermCurve) for one, (2,3+d) and (2,6+d) for anisotropic input; no other curve exists. It succeeds if all these columns can be read and the first can be inverted; another number of files is refused, and so is a file whose first column is not strictly monotone.", "quantifier": "all numbers of rock types, files, columns and readers", "why_tests_cant": "any number of rock types and files", "anchors": ["examples/upscale_relperm.cpp: main"]}
{"id": "C175", "title": "Result table of upscale_relperm", "statement": "Row i of the result table holds the pressure of point i times surface tension/1000, its saturation, and the relative permeabilities of all phases and tensor elements in the order of the header, which names exactly these columns. With more than one interpolation point the rows are at evenly spaced saturations from the least to the greatest, every value lies within the bounds of its column, and a row at a computed saturation repeats the computed values. One interpolation point is not interpolation (finding).", "quantifier": "all numbers of points, phases and elements, all values", "why_tests_cant": "tables of any length", "anchors": ["examples/upscale_relperm.cpp: main"]}
{"id": "C176", "title": "Files written by upscale_relperm", "statement": "Without output name nothing is written; otherwise the result table goes to the named file and, for two phases, an ECLIPSE table for x, y and z to three further files with distinct names, none of which is the named file. Row i of the file of a component has the saturation, the two diagonal relative permeabilities and the pressure (in other units) of row i of the result table; a positive krow?swirr adds a first row, also for oil and water (finding). The name is the part before the last dot, even if this dot belongs to a directory (refuted: the file need not be in the directory named).", "quantifier": "all outputs, names and numbers of points", "why_tests_cant": "tables and names of any length", "anchors": ["examples/upscale_relperm.cpp: main, getEclipseOutputFile, writeEclipseOutput"]}
{"id": "C177", "title": "Control parameters and initial saturation of a simulator", "statement": "A simulator starts with the uniform saturation given (0 by default), or with exactly the numbers of a saturation file, which is accepted only if the count at its start, the number of numbers and the number of cells are the same. The step size is given in days and kept in seconds; without the parameter each call of init multiplies the old one by a day once more (finding), so it is 86400^n seconds after n calls.", "quantifier": "all parameters, files and grids, any number of init calls", "why_tests_cant": "files of any length, any history of calls", "anchors": ["opm/porsol/common/SimulatorBase.hpp: init, initControl, initInitialConditions"]}
{"id": "C178", "title": "Sources in boxes", "statement": "A cell whose centre lies strictly inside the injection (production) box is a source of plus (minus) density times volume, for the flow solver and for the transport solver, and the reported totals are the sums of these; other cells keep the rate they had. For the first init and disjoint boxes both solvers see the same rates; for overlapping boxes (refuted) or after another init (refuted: old rates stay) they do not. The sparse vector of the transport solver has increasing indices, as its interface demands, iff all injection cells come before all production cells (refuted in general). A missing density is refused.", "quantifier": "all grids, boxes and earlier states", "why_tests_cant": "grids of any size", "anchors": ["examples/SimulatorTesterFlexibleBC.hpp: initSources, setSourceBlock, isInside", "opm/porsol/common/SimulatorBase.hpp: initSources"]}
{"id": "C179", "title": "Run of a simulator", "statement": "The i-th saturation written by a simulation is the transport solution, for the step size, of the flow solution for the saturation written before (the initial one at first), and the change reported with it is the largest change of a cell. A run that ends normally has written as many as simulation_steps (none if negative) and ends with the last; a run that fails has written exactly those before the failing step.", "quantifier": "all flow and transport solvers that keep the number of cells, all numbers of steps, failure in any step", "why_tests_cant": "any number of steps and failure points", "anchors": ["examples/SimulatorTester.hpp: run"]}
{"id": "C180", "title": "Grid and properties of a simulator", "statement": "The parameter based set-up makes the same grid and properties as the set-up with explicit arguments (threshold converted from millidarcy, surface tension and contact angle used only with J-functions) and sets the viscosities iff one is given; for a cartesian grid, the default, every dimension, size, porosity and permeability not given has its default. It throws exactly for an unknown format, a missing file name or a request for ECL output. The grid-only set-up makes the same grid if a format is given and clipping is not requested; it ignores clip_z (refuted) and requires the format.", "quantifier": "all parameters", "why_tests_cant": "every combination of given and missing parameters", "anchors": ["opm/porsol/common/setupGridAndProps.hpp: setupGridAndProps, setupGridAndPropsEclipse", "opm/upscaling/initCPGrid.cpp: initCPGrid"]}
{"id": "C181", "title": "Comparison of result files", "statement": "The comparison of an upscaling result with a reference succeeds iff both have the same number of values and each pair agrees within the absolute tolerance or within the relative tolerance of the larger magnitude, or is two zeros; otherwise it throws. Values are the words of each line before the first word starting with #. It accepts a file against itself and does not depend on the order of the files.", "quantifier": "all files and tolerances", "why_tests_cant": "files of any length", "anchors": ["tests/compareUpscaling.cpp: readData, startTest"]}
{"id": "C182", "title": "Parameters of the elasticity program", "statement": "Numbers and switches of the linear solver are used as given and have the documented defaults otherwise; with a symmetric solver the number of post smoothing steps is that of pre smoothing steps, whatever is given. Solver, preconditioners and smoother are selected exactly by their lower case names, every other word selecting the last alternative. The periodicity method is set only by mpc, mortar or none in lower case: the spellings MPC and Mortar of the usage text leave it uninitialised (refuted). The name of the vtu output is cut before the first .vtu in it.", "quantifier": "all command lines", "why_tests_cant": "every combination of given and missing parameters, all words", "anchors": ["opm/elasticity/elasticity_upscale.hpp: LinSolParams::parse", "examples/upscale_elasticity.cpp: parseCommandLine"]}
{"id": "C183", "title": "Coordinates, cells and preconditioner derived from the grid", "statement": "Coordinates are integers, -1 if not given. All six are replaced by those of the grid iff xmin or xmax is negative, so that with x given and y, z missing the latter remain -1 (refuted). A uniform grid divides a coordinate greater than -1 evenly into the cells and has unit cells otherwise. With linsolver_zcells=-1 the number of cells to collapse is the integer nearest to twice the ratio of the mean lateral to the vertical cell size, halves rounded up. The heuristic selects two levels iff the aspect ratio of the cells exceeds 80, but the class of the preconditioner has been chosen before, so AMG is used also then (refuted).", "quantifier": "all coordinates and grids", "why_tests_cant": "all real coordinates", "anchors": ["examples/upscale_elasticity.cpp: run, runAMG, main"]}
{"id": "C184", "title": "Set-up of the linear solvers", "statement": "The load vectors have one entry for every equation and every multiplier. The direct solver gets the saddle point matrix, the iterative ones leave the operator as it is. Every thread that works on load cases has a solver: LU for direct, CG without multipliers, Uzawa, MINRES for symmetric and restarted GMRES otherwise with multipliers. Two threads use the same preconditioner object iff the preconditioner set up last is a Schwarz method; if that is the one of the multiplier block, the threads share a primary AMG that should have been copied (refuted). Every multiplier gets a preconditioner of the class of the multiplier block; with the two level heuristic and two levels asked for the multipliers, that is AMG (refuted).", "quantifier": "all parameters, numbers of threads, operators and couplings", "why_tests_cant": "any number of threads and any size", "anchors": ["opm/elasticity/elasticity_upscale_impl.hpp: setupSolvers", "opm/elasticity/elasticity_preconditioners.hpp", "opm/elasticity/elasticity_preconditioners.cpp"]}
{"id": "C185", "title": "Subdomains of the Schwarz method", "statement": "There is one subdomain for every column of cells. It has exactly the equations that occur in the displacements of the nodes of the cells of that column, directly or through constraints that couple displacements of one direction. Hence any two equations coupled in the operator share a subdomain, and every equation is in one if every node is in a cell. For constraints that couple different directions this fails (refuted).", "quantifier": "all grids, constraints and fixed nodes", "why_tests_cant": "grids of any size", "anchors": ["opm/elasticity/elasticity_preconditioners.cpp: Schwarz::setup2"]}
{"id": "C186", "title": "The load cases of the program", "statement": "Row i of the elasticity matrix, before rows are exchanged, is the average stress of the solution of load case i with entries below 1e-4 set to 0; the solution is the one computed by the solver of the thread that works on the case, or the one read with inspect=results. With inspect=mesh nothing is computed. A linear solver that fails with an ISTL error is not told from one that succeeded: the row then comes from the vector it left behind (finding).", "quantifier": "all solvers, loads and assignments of load cases to threads", "why_tests_cant": "all schedules and failures", "anchors": ["examples/upscale_elasticity.cpp: run", "opm/elasticity/elasticity_upscale_impl.hpp: solve"]}
{"id": "C187", "title": "Preconditioner used by a solve of the flow solver", "statement": "In every sequence of initialisations and solves of one solver object, a solve with linsolver_type 0 is preconditioned for its own matrix, and a solve with type 1, 2 or 3 uses the preconditioner built by the last solve of these types without same_matrix, which had the same type. A solve with type 0, without same_matrix, or with same_matrix following such a solve of the same type is carried out: it succeeds iff the iterative solver converges. A first multigrid solve with same_matrix dereferences a null pointer, one with another type than the last throws, and initialising for other boundary conditions or another grid does not discard the preconditioner (refuted).", "quantifier": "all histories of calls, all grids, boundary conditions and iterative solvers", "why_tests_cant": "histories of any length", "anchors": ["opm/porsol/mimetic/IncompFlowSolverHybrid.hpp: init, solve, solveLinearSystem, solveLinearSystemAMG, solveLinearSystemFastAMG, solveLinearSystemKAMG"]}
{"id": "C188", "title": "System handed to the iterative solver", "statement": "The iterative solver gets the right hand side and the matrix assembled for the call, with the first diagonal entry doubled exactly if there is no Dirichlet condition and a preconditioner is built; with same_matrix the matrix is left singular. The number of iterations is at most the given one, or the number of unknowns if that is not positive. Type 0 starts from zero; the other types start from the solution of the equations that involve one unknown only, in particular the Dirichlet values, and zero elsewhere.", "quantifier": "all problems with conforming grids and positive definite inner products", "why_tests_cant": "any grid", "anchors": ["opm/porsol/mimetic/IncompFlowSolverHybrid.hpp: init, solve, solveLinearSystem, solveLinearSystemAMG, solveLinearSystemFastAMG, solveLinearSystemKAMG"]}
{"id": "C189", "title": "Outcome of a flow solve", "statement": "A solve that returns has replaced the solution by pressures and fluxes computed from an answer the iterative solver reported as converged. If that answer solves the system handed over, the fluxes obey the discrete Darcy law, conserve mass in every cell, are continuous and satisfy the boundary conditions, for all linear solvers, with or without same_matrix, and with or without Dirichlet conditions if the data are then balanced and the grid is connected. A solve that throws leaves the previous solution.", "quantifier": "all problems, solvers and histories", "why_tests_cant": "any grid, any iterative solver", "anchors": ["opm/porsol/mimetic/IncompFlowSolverHybrid.hpp: init, solve, solveLinearSystem, solveLinearSystemAMG, solveLinearSystemFastAMG, solveLinearSystemKAMG"]}
{"id": "C190", "title": "Reuse of the matrix by the upscaling", "statement": "The matrix and its pattern depend on the kinds of the boundary conditions and on periodic partners, not on their values or on the sources. Hence with linear or periodic conditions, where the upscaling passes same_matrix for the second and third direction, the preconditioner of the first direction belongs to the same matrix, up to the doubled first diagonal entry which the later directions lack without Dirichlet conditions; with fixed conditions, or with type 0, every direction gets its own.", "quantifier": "all grids with a boundary id for every boundary face, all inner products and iterative solvers", "why_tests_cant": "any grid", "anchors": ["opm/upscaling/UpscalerBase_impl.hpp: upscaleEffectivePerm", "opm/porsol/common/setupBoundaryConditions.hpp", "opm/porsol/mimetic/IncompFlowSolverHybrid.hpp: solve"]}
{"id": "C191", "title": "Upscaled permeability is symmetric", "statement": "With periodic boundary conditions the tensor returned by the single-phase upscaling of a block, that is the boundary set-up, the three flow solves and the averaging together, consists of nine finite numbers and is symmetric, whatever the cell permeabilities.", "quantifier": "all rectangular blocks of cells (any number, shape and permeability field), all linear solvers that solve exactly when they report convergence, all solver states", "why_tests_cant": "any grid and heterogeneity", "anchors": ["opm/upscaling/UpscalerBase_impl.hpp: upscaleEffectivePerm, computeAverageVelocity, computeDelta", "opm/porsol/common/setupBoundaryConditions.hpp", "opm/porsol/mimetic/IncompFlowSolverHybrid.hpp: init, solve, postProcessFluxes"]}
{"id": "C192", "title": "Upscaled permeability is positive definite", "statement": "With periodic conditions the upscaled tensor is positive definite in a three-dimensional run; in a two-dimensional run its third row and column are zero and the remaining 2 x 2 block is positive definite.", "quantifier": "all rectangular blocks of cells (any number, shape and permeability field), all linear solvers that solve exactly when they report convergence, all solver states", "why_tests_cant": "any grid and heterogeneity", "anchors": ["opm/upscaling/UpscalerBase_impl.hpp: upscaleEffectivePerm, computeAverageVelocity, computeDelta", "opm/porsol/common/setupBoundaryConditions.hpp", "opm/porsol/mimetic/IncompFlowSolverHybrid.hpp: init, solve, postProcessFluxes"]}
{"id": "C193", "title": "Bounds on the upscaled permeability", "statement": "With periodic conditions on a block whose opposite faces are translates of each other, the upscaled tensor is at most the volume average of the cell permeabilities (arithmetic mean) and at least the inverse of the average of their inverses (harmonic mean), as quadratic forms; cells have the permeability times mobility from which the mimetic inner product was built.", "quantifier": "all rectangular blocks of cells (any number, shape and permeability field), all linear solvers that solve exactly when they report convergence, all solver states", "why_tests_cant": "any grid and heterogeneity", "anchors": ["opm/upscaling/UpscalerBase_impl.hpp: upscaleEffectivePerm, computeAverageVelocity, computeDelta", "opm/porsol/common/setupBoundaryConditions.hpp", "opm/porsol/mimetic/IncompFlowSolverHybrid.hpp: init, solve, postProcessFluxes"]}
{"id": "C194", "title": "Uniform rock is upscaled to itself", "statement": "If all cells have the same permeability tensor, full or not, periodic upscaling returns this tensor in a three-dimensional run, and in a two-dimensional run the tensor that is left when nothing flows along the third axis (the Schur complement).", "quantifier": "all rectangular blocks of cells (any number, shape and permeability field), all linear solvers that solve exactly when they report convergence, all solver states", "why_tests_cant": "any grid", "anchors": ["opm/upscaling/UpscalerBase_impl.hpp: upscaleEffectivePerm, computeAverageVelocity, computeDelta", "opm/porsol/common/setupBoundaryConditions.hpp", "opm/porsol/mimetic/IncompFlowSolverHybrid.hpp: init, solve, postProcessFluxes"]}
{"id": "C195", "title": "Fixed conditions give a positive diagonal tensor", "statement": "With fixed boundary conditions the upscaled tensor is diagonal with positive diagonal entries, each at most the volume average of the corresponding diagonal entries of the cell permeabilities and at least the harmonic counterpart (the inverse of the average of the diagonal entries of the inverses).", "quantifier": "all rectangular blocks of cells (any number, shape and permeability field), all linear solvers that solve exactly when they report convergence, all solver states", "why_tests_cant": "any grid and heterogeneity", "anchors": ["opm/upscaling/UpscalerBase_impl.hpp: upscaleEffectivePerm, computeAverageVelocity, computeDelta", "opm/porsol/common/setupBoundaryConditions.hpp", "opm/porsol/mimetic/IncompFlowSolverHybrid.hpp: init, solve, postProcessFluxes"]}
{"id": "C196", "title": "Upscaled permeability is monotone and scales", "statement": "If every cell of one rock is at most c times as permeable as the same cell of another rock then so is the upscaled tensor, with periodic conditions as a quadratic form and with fixed conditions entry by entry on the diagonal. Multiplying all cell matrices by c > 0 multiplies the tensor by c. The mimetic matrices are ordered like the permeability times mobility of the cells, whatever orthonormal bases the linear algebra library returns.", "quantifier": "all pairs of rocks on the same block, both kinds of boundary conditions", "why_tests_cant": "any grid and heterogeneity", "anchors": ["opm/upscaling/UpscalerBase_impl.hpp: upscaleEffectivePerm", "opm/porsol/mimetic/MimeticIPEvaluator.hpp: evaluate, getInverseMatrix"]}
{"id": "C197", "title": "Upscaling returns a tensor unless a solve fails", "statement": "For a rectangular block with periodic, fixed or linear conditions (for linear ones: faces of the boundary with different ids and centroids inside the bounding box) and any linear solver type from 0 to 3, the upscaling of the permeability never has undefined behaviour. It returns a tensor unless no periodic partners can be set up or the iterative solver reports failure for one of the three flow problems (or the regularised version of it); then it throws.", "quantifier": "all blocks, all iterative solvers that return vectors of the right length, all previous states of the boundary conditions and of the flow solver", "why_tests_cant": "any grid, any solver", "anchors": ["opm/upscaling/UpscalerBase_impl.hpp: upscaleEffectivePerm, computeAverageVelocity, computeDelta", "opm/porsol/common/setupBoundaryConditions.hpp", "opm/porsol/mimetic/IncompFlowSolverHybrid.hpp: init, solve, postProcessFluxes"]}
{"id": "C198", "title": "Linear conditions reproduce a uniform rock and scale", "statement": "With linear boundary conditions the upscaling of a block returns nine finite numbers. If all cells have the same permeability tensor, full or not, a three-dimensional run returns this tensor. Multiplying all cell matrices by c > 0 multiplies the tensor by c.", "quantifier": "all rectangular blocks of cells (any number, shape and permeability field), all linear solvers that solve exactly when they report convergence, all solver states", "why_tests_cant": "any grid and heterogeneity", "anchors": ["opm/upscaling/UpscalerBase_impl.hpp: upscaleEffectivePerm, computeAverageVelocity, computeDelta", "opm/porsol/common/setupBoundaryConditions.hpp", "opm/porsol/mimetic/IncompFlowSolverHybrid.hpp: init, solve, postProcessFluxes"]}
{"id": "C199", "title": "Upscaled relative permeabilities lie between zero and one", "statement": "For a block with fixed or periodic conditions upscale_relperm computes three or nine curves with one value for each pressure point. With fixed conditions every value is positive. If the cell permeabilities are not negative, no PERMY or PERMZ exceeds the largest PERMX, and the relative permeabilities of the cells are at most one at the point, then the values are at most one. With periodic conditions the product of the relative permeability tensor and the single-phase tensor is symmetric and positive, and under the same hypotheses it is not larger, as a quadratic form, than the single-phase tensor. Without the restriction on PERMY and PERMZ the bound fails: the lower limit of the single-phase permeabilities comes from PERMX only, and a value of 100 is possible.", "quantifier": "all rectangular blocks of cells, rock types, relative permeability and capillary pressure curves and pressure points, all linear solvers that solve exactly when they report convergence", "why_tests_cant": "any grid, rock and curve", "anchors": ["opm/upscaling/RelPermUtils.cpp: RelPermUpscaleHelper::upscaleSinglePhasePermeability, upscalePermeability, getRelPerm, calculateMinMaxCapillaryPressure", "opm/upscaling/UpscalerBase_impl.hpp: upscaleEffectivePerm", "opm/porsol/common/ReservoirPropertyTracerFluid.hpp: phaseMobilities"]}
{"id": "C200", "title": "Upscaled relative permeabilities follow the curves of the rocks", "statement": "If a phase flows in every cell at least as easily at one pressure point as at another, the upscaled relative permeability there is at least as large (each value with fixed conditions; with periodic conditions the phase permeability tensor as a quadratic form). So if saturations fall with the pressure in all rock types and the relative permeabilities rise (or fall) with the saturation, the upscaled curves fall (or rise) with the pressure.", "quantifier": "all rectangular blocks of cells, rock types, relative permeability and capillary pressure curves and pressure points, all linear solvers that solve exactly when they report convergence", "why_tests_cant": "any grid, rock and curve", "anchors": ["opm/upscaling/RelPermUtils.cpp: RelPermUpscaleHelper::upscaleSinglePhasePermeability, upscalePermeability, getRelPerm, calculateMinMaxCapillaryPressure", "opm/upscaling/UpscalerBase_impl.hpp: upscaleEffectivePerm", "opm/porsol/common/ReservoirPropertyTracerFluid.hpp: phaseMobilities"]}
{"id": "C201", "title": "A relative permeability that is the same in all cells is returned", "statement": "If at a pressure point all cells have rock with the same relative permeability, in all directions, and no permeability is changed by a lower limit, the upscaled relative permeability is exactly that number: each of the three values with fixed conditions, the multiple of the identity with periodic ones. This does not depend on the permeabilities. If the single-phase upscaling succeeds for all positive permeabilities and the range of capillary pressures is found, the curves are always computed.", "quantifier": "all rectangular blocks of cells, rock types, relative permeability and capillary pressure curves and pressure points, all linear solvers that solve exactly when they report convergence", "why_tests_cant": "any grid, rock and curve", "anchors": ["opm/upscaling/RelPermUtils.cpp: RelPermUpscaleHelper::upscaleSinglePhasePermeability, upscalePermeability, getRelPerm, calculateMinMaxCapillaryPressure", "opm/upscaling/UpscalerBase_impl.hpp: upscaleEffectivePerm", "opm/porsol/common/ReservoirPropertyTracerFluid.hpp: phaseMobilities"]}
{"id": "C202", "title": "Steady state relative permeabilities lie between those of the cells", "statement": "For a block without gravity with scalar mobilities, both steady state upscalers return the relative permeability tensors for the saturations they report as the last state. With fixed conditions a tensor is diagonal, its diagonal entries are at least the relative permeability threshold, at least every lower bound of the relative permeabilities of the cells, and at most every upper bound that is not below the threshold. With periodic conditions the product of the tensor and the single-phase permeability is symmetric and positive, and the same bounds hold for it as a quadratic form, relative to the single-phase permeability.", "quantifier": "all rectangular blocks of cells, permeabilities, saturations, relative permeability curves, viscosities, thresholds and contrasts, all linear solvers that solve exactly when they report convergence", "why_tests_cant": "any grid, rock, curve and saturation field", "anchors": ["opm/upscaling/SteadyStateUpscalerImplicit_impl.hpp: upscaleSteadyState", "opm/upscaling/SteadyStateUpscaler_impl.hpp: upscaleSteadyState", "opm/upscaling/UpscalerBase_impl.hpp: upscaleEffectivePerm, upscaleSinglePhase", "opm/porsol/common/ReservoirPropertyFixedMobility.hpp: phaseMobility", "opm/porsol/common/MatrixInverse.hpp: inverse3x3"]}
{"id": "C203", "title": "Steady state relative permeabilities follow those of the cells", "statement": "If in every cell the relative permeability of a phase at one saturation field is at most that at another, then the upscaled relative permeabilities are ordered in the same way: each diagonal entry with fixed conditions; with periodic conditions the phase permeability tensor as a quadratic form. The limits on small mobilities, which depend on the largest mobility of the field, do not spoil this.", "quantifier": "all rectangular blocks of cells, permeabilities, saturations, relative permeability curves, viscosities, thresholds and contrasts, all linear solvers that solve exactly when they report convergence", "why_tests_cant": "any grid, rock, curve and pair of saturation fields", "anchors": ["opm/upscaling/SteadyStateUpscalerImplicit_impl.hpp: upscaleSteadyState", "opm/upscaling/SteadyStateUpscaler_impl.hpp: upscaleSteadyState", "opm/upscaling/UpscalerBase_impl.hpp: upscaleEffectivePerm, upscaleSinglePhase", "opm/porsol/common/ReservoirPropertyFixedMobility.hpp: phaseMobility", "opm/porsol/common/MatrixInverse.hpp: inverse3x3"]}
{"id": "C204", "title": "A uniform relative permeability is returned by steady state upscaling", "statement": "If all cells have the same relative permeability, not below the threshold, the upscaled tensor is that number times the identity, whatever the permeabilities of the cells, with fixed and with periodic conditions. If the flow problems can be solved for all positive mobilities, the tensors of both phases are always computed: the single-phase tensor is invertible. With closed top and bottom (the 2d_hack option) and periodic conditions it never is: its third row is zero, the inversion divides by zero and no relative permeabilities are obtained.", "quantifier": "all rectangular blocks of cells, permeabilities, saturations, relative permeability curves, viscosities, thresholds and contrasts, all linear solvers that solve exactly when they report convergence", "why_tests_cant": "any grid, rock and viscosity", "anchors": ["opm/upscaling/SteadyStateUpscalerImplicit_impl.hpp: upscaleSteadyState", "opm/upscaling/SteadyStateUpscaler_impl.hpp: upscaleSteadyState", "opm/upscaling/UpscalerBase_impl.hpp: upscaleEffectivePerm, upscaleSinglePhase", "opm/porsol/common/ReservoirPropertyFixedMobility.hpp: phaseMobility", "opm/porsol/common/MatrixInverse.hpp: inverse3x3"]}
{"id": "C205", "title": "The explicit steady state loop ends at the first small change, and runs are chained", "statement": "A run of the explicit steady state upscaler takes at most simulation_steps steps, each starting from the saturations the one before produced. No step but the last changes every saturation by less than the threshold; a run shorter than simulation_steps ends with a step whose largest change is below the threshold. With the default threshold zero all steps are taken. The reported state is the one after the last step. In the manager the first pressure drop of a saturation starts from that saturation in all cells, every later one from the reported state of the one before.", "quantifier": "all numbers of steps, thresholds, transport and pressure solvers (possibly depending on the earlier steps), initial saturations, lists of saturations and pressure drops", "why_tests_cant": "any number of steps and any solver", "anchors": ["opm/upscaling/SteadyStateUpscaler_impl.hpp: upscaleSteadyState, lastSaturationState", "opm/upscaling/SteadyStateUpscalerManager.hpp: upscale"]}
{"id": "C206", "title": "Steady state relative permeabilities with anisotropic curves lie between those of the cells and directions", "statement": "For a block without gravity whose cells have diagonal permeabilities and relative permeabilities that differ between the axes, both steady state upscalers return the relative permeability tensors for the saturations they report as the last state. With fixed conditions a tensor is diagonal, its diagonal entries are at least the relative permeability threshold, at least every lower bound of the relative permeabilities of all cells along all axes, and at most every upper bound that is not below the threshold. With periodic conditions the product of the tensor and the single-phase permeability is symmetric and positive, and the same bounds hold for it as a quadratic form, relative to the single-phase permeability.", "quantifier": "all rectangular blocks of cells with diagonal permeabilities, saturations, rocks with different relative permeability curves along the three axes, viscosities, thresholds and contrasts, all linear solvers that solve exactly when they report convergence", "why_tests_cant": "any grid, rock, curve and saturation field", "anchors": ["opm/upscaling/SteadyStateUpscalerImplicit_impl.hpp: upscaleSteadyState, maxMobility, thresholdMobility", "opm/upscaling/SteadyStateUpscaler_impl.hpp: upscaleSteadyState", "opm/upscaling/UpscalerBase_impl.hpp: upscaleEffectivePerm, upscaleSinglePhase", "opm/porsol/common/ReservoirPropertyFixedMobility.hpp: phaseMobility", "opm/porsol/common/ReservoirPropertyCapillaryAnisotropicRelperm_impl.hpp: phaseMobility", "opm/porsol/mimetic/MimeticIPAnisoRelpermEvaluator.hpp: computeDynamicParams, getInverseMatrix"]}
{"id": "C207", "title": "Steady state relative permeabilities with anisotropic curves follow those of the cells", "statement": "If in every cell and along every axis the relative permeability of a phase at one saturation field is at most that at another, then the upscaled relative permeabilities are ordered in the same way: each diagonal entry with fixed conditions; with periodic conditions the phase permeability tensor as a quadratic form.", "quantifier": "all rectangular blocks of cells with diagonal permeabilities, saturations, rocks with different relative permeability curves along the three axes, viscosities, thresholds and contrasts, all linear solvers that solve exactly when they report convergence", "why_tests_cant": "any grid, rock, curve and pair of saturation fields", "anchors": ["opm/upscaling/SteadyStateUpscalerImplicit_impl.hpp: upscaleSteadyState, maxMobility, thresholdMobility", "opm/upscaling/SteadyStateUpscaler_impl.hpp: upscaleSteadyState", "opm/upscaling/UpscalerBase_impl.hpp: upscaleEffectivePerm, upscaleSinglePhase", "opm/porsol/common/ReservoirPropertyFixedMobility.hpp: phaseMobility", "opm/porsol/common/ReservoirPropertyCapillaryAnisotropicRelperm_impl.hpp: phaseMobility", "opm/porsol/mimetic/MimeticIPAnisoRelpermEvaluator.hpp: computeDynamicParams, getInverseMatrix"]}
{"id": "C208", "title": "Uniform anisotropic relative permeabilities are returned by steady state upscaling", "statement": "If all cells have the same relative permeability along all axes, not below the threshold, the upscaled tensor is that number times the identity, whatever the permeabilities. If all cells have the same diagonal permeability and the same relative permeabilities along the axes, not below the threshold and not further apart than the mobility contrast allows, the upscaled tensor is diagonal with exactly these relative permeabilities, with fixed conditions and, if opposite faces are translates of each other, with periodic ones. If the flow problems can be solved for all positive diagonal mobilities, the tensors of both phases are always computed.", "quantifier": "all rectangular blocks of cells with diagonal permeabilities, saturations, rocks with different relative permeability curves along the three axes, viscosities, thresholds and contrasts, all linear solvers that solve exactly when they report convergence", "why_tests_cant": "any grid, rock and viscosity", "anchors": ["opm/upscaling/SteadyStateUpscalerImplicit_impl.hpp: upscaleSteadyState, maxMobility, thresholdMobility", "opm/upscaling/SteadyStateUpscaler_impl.hpp: upscaleSteadyState", "opm/upscaling/UpscalerBase_impl.hpp: upscaleEffectivePerm, upscaleSinglePhase", "opm/porsol/common/ReservoirPropertyFixedMobility.hpp: phaseMobility", "opm/porsol/common/ReservoirPropertyCapillaryAnisotropicRelperm_impl.hpp: phaseMobility", "opm/porsol/mimetic/MimeticIPAnisoRelpermEvaluator.hpp: computeDynamicParams, getInverseMatrix"]}
{"id": "C209", "title": "Stiffer materials give a stiffer elastic block", "statement": "Take two sets of materials on the same grid with the same constraints. If in every cell the first stiffness matrix is at most k times the second one, as quadratic forms, and the first ones are not negative, then the upscaled stiffness of the first set is at most k times that of the second one, both multiplied by the scaling factor of the run. If the second matrices are exactly k times the first ones, k positive, so is the upscaled stiffness.", "quantifier": "all grids of hexahedra, constraints, prescribed zero displacements, orders of the cells, material matrices and exact solutions of the six load cases", "why_tests_cant": "any grid, constraints and pair of material assignments", "anchors": ["opm/elasticity/elasticity_upscale_impl.hpp: assemble, averageStress, initForces", "opm/elasticity/asmhandler_impl.hpp: initForAssembly, addElement, extractValues", "examples/upscale_elasticity.cpp: run"]}
{"id": "C210", "title": "Lower bound of the upscaled stiffness and exactness for one material", "statement": "If no displacement that the constraints allow has a mean strain (as with periodic conditions), then the upscaled stiffness, multiplied by the scaling factor of the run, is at least the inverse of the volume average of the compliances; together with C121 it lies between the harmonic and the arithmetic average of the materials. It is positive definite if the materials have invertible nonnegative matrices. If all cells have the same matrix, this matrix is returned.", "quantifier": "all grids of hexahedra, constraints, prescribed zero displacements, orders of the cells, material matrices and exact solutions of the six load cases", "why_tests_cant": "any grid, constraints and materials", "anchors": ["opm/elasticity/elasticity_upscale_impl.hpp: assemble, averageStress, initForces", "opm/elasticity/asmhandler_impl.hpp: initForAssembly, addElement, extractValues", "examples/upscale_elasticity.cpp: run"]}
{"id": "C211", "title": "Contents of a restart report step", "statement": "Writing a report step keeps exactly the earlier report steps of the file and appends one step: the headers, STARTSOL, one array per field with restart target, in increasing order of the names and each once, with the values only converted to float, and ENDSOL. Inserting a field into the solution keeps it sorted and never replaces a field of the same name. The pressure vector holds in each entry the pressure of the cell with that index.", "quantifier": "all solutions, files in order, step numbers, times and cell orders", "why_tests_cant": "any set of fields, any earlier file", "anchors": ["opm/upscaling/writeECLData.cpp: writeECLData", "opm/upscaling/SteadyStateUpscalerImplicit_impl.hpp: upscaleSteadyState (output_ecl)", "opm/porsol/common/SimulatorUtilities.hpp: getCellPressure"]}
{"id": "C212", "title": "Restart file of an implicit steady state run", "statement": "With output_ecl the run computes the same states as without. If the converged calls cover less than 2^31 seconds, the file afterwards holds the earlier steps with numbers below that of the first converged call (all of them if none converged), followed by one step for each converged call, numbered like the call (failed calls leave gaps), with the saturations after the call, the same pressures in every step, the total converged time and the date 2012-01-01 plus that time rounded down to seconds; the steps are in order. The start of the simulation in the header lies at most one second before 2012-01-01 and is exact only for whole seconds. The name contains the character code of the direction letter.", "quantifier": "all parameters with positive step sizes, transport solvers, initial saturations, pressures and earlier files", "why_tests_cant": "every history of converged and failed transport steps", "anchors": ["opm/upscaling/writeECLData.cpp: writeECLData", "opm/upscaling/SteadyStateUpscalerImplicit_impl.hpp: upscaleSteadyState (output_ecl)", "opm/porsol/common/SimulatorUtilities.hpp: getCellPressure"]}
{"id": "C213", "title": "Restart output ends the run after 2^31 seconds", "statement": "With output_ecl the run has undefined behaviour exactly when the converged calls cover 2^31 seconds (68 years) or more, since the time is converted to int, although the run without output is well defined. This happens with the default parameters (steps up to 10000 years).", "quantifier": "all parameters with positive step sizes, transport solvers and initial saturations; one worked run with the default parameters", "why_tests_cant": "long runs with growing steps", "anchors": ["opm/upscaling/writeECLData.cpp: writeECLData", "opm/upscaling/SteadyStateUpscalerImplicit_impl.hpp: upscaleSteadyState (output_ecl)", "opm/porsol/common/SimulatorUtilities.hpp: getCellPressure"]}
{"id": "C214", "title": "The chopped file and the sub-deck agree", "statement": "Reading the GRDECL file that the chopper writes, as names followed by data up to a slash, gives exactly the keywords of the sub-deck, in the same order, each with the text of its values in order; empty fields are left out in both. If a number needs at most w characters and a whole number at most v, no line is longer than the larger of 4w+3 and 20v+19 characters.", "quantifier": "all decks, blocks and number formats without blanks", "why_tests_cant": "any size of the block and any set of keywords", "anchors": ["opm/upscaling/CornerpointChopper.hpp: writeGrdecl, subDeck, outputField, addDoubleKeyword_, addIntKeyword_, filterDoubleField, filterIntegerField"]}
{"id": "C215", "title": "Contents of the sub-deck", "statement": "If chopping succeeds on the geometry of a deck with fields of the right size, the sub-deck exists and has SPECGRID with the dimensions of the block, the chopped COORD and ZCORN, and, for a block that is not empty, each of ACTNUM, SATNUM, PORO, NTG, SWCR, SOWCR, PERMX, PERMY and PERMZ exactly if the deck has it, with the values of the cells of the block; no keyword appears twice.", "quantifier": "all decks, blocks and number formats without blanks", "why_tests_cant": "any deck and any block", "anchors": ["opm/upscaling/CornerpointChopper.hpp: writeGrdecl, subDeck, outputField, addDoubleKeyword_, addIntKeyword_, filterDoubleField, filterIntegerField"]}
{"id": "C216", "title": "Units of the sub-deck", "statement": "The sub-deck attaches metric units to the unconverted values of the file. Its values in SI units are those of the input exactly for dimensionless fields and permeabilities, or if the input is in METRIC units. For a deck in FIELD or LAB units every COORD and ZCORN array with a value other than zero is wrong (the same holds for the written file, which names no unit system).", "quantifier": "all blocks, keywords and the unit systems METRIC, FIELD and LAB", "why_tests_cant": "needs a statement about all keywords and unit systems", "anchors": ["opm/upscaling/CornerpointChopper.hpp: writeGrdecl, subDeck, outputField, addDoubleKeyword_, addIntKeyword_, filterDoubleField, filterIntegerField"]}
{"id": "C217", "title": "A chopper can be used again", "statement": "After any number of earlier chops of any blocks on the same chopper, including chops that threw, chopping a block with imin < imax and jmin < jmax returns, throws or is undefined exactly as on a new chopper, and if it returns, the dimensions, COORD, ZCORN and all cell fields are the same as on a new chopper.", "quantifier": "all histories of chops (any arguments, any exceptions), decks and further blocks", "why_tests_cant": "every history of calls", "anchors": ["opm/upscaling/CornerpointChopper.hpp: chop, filterField, filterDoubleField, filterIntegerField", "examples/cpchop.cpp: main"]}
{"id": "C218", "title": "State after a failed chop", "statement": "If a chop throws because the depth interval is empty, the chopper afterwards has the horizontal dimensions and the COORD of the failed block, but the number of layers, ZCORN and all cell fields from before; a file or sub-deck made from it mixes two blocks.", "quantifier": "all decks with consistent arrays, blocks inside, states and depth intervals without common part", "why_tests_cant": "every earlier state", "anchors": ["opm/upscaling/CornerpointChopper.hpp: chop, filterField, filterDoubleField, filterIntegerField", "examples/cpchop.cpp: main"]}
{"id": "C219", "title": "Boundary conditions of a simulation", "statement": "Without upscaling or region based conditions the parameters decide the left and right sides: pressures (default 1 bar and 0) or fluxes (left required, right by default minus left, so that the fluxes balance); any other type of condition, or a missing left flux, throws. All other sides keep the condition they had in the table, and are closed in a new table; a table used before is not reset.", "quantifier": "all parameter sets, grids and tables", "why_tests_cant": "every combination of parameters", "anchors": ["opm/porsol/common/setupBoundaryConditions.hpp: setupBoundaryConditions, setupUpscalingConditions, setupRegionBasedConditions", "opm/porsol/common/BoundaryConditions.hpp: FlowBC, BoundaryConditionBase"]}
{"id": "C220", "title": "Boundary conditions for upscaling or a block, from parameters", "statement": "With upscaling asked for, a missing or unknown boundary condition type throws; with fixed or periodic conditions a pressure drop direction other than 0, 1, 2 writes outside an array (undefined behaviour). With fixed conditions in a valid direction the low side gets the pressure drop (default 1e5) and the boundary saturation (default 1), the high side pressure zero, all others are closed, whatever the table held before. Region based conditions throw without a pressure; otherwise exactly the boundary ids with a face inside the box (default unit cube) get it, and the others are kept.", "quantifier": "all parameter sets, grids and tables", "why_tests_cant": "every combination of parameters", "anchors": ["opm/porsol/common/setupBoundaryConditions.hpp: setupBoundaryConditions, setupUpscalingConditions, setupRegionBasedConditions", "opm/porsol/common/BoundaryConditions.hpp: FlowBC, BoundaryConditionBase"]}
{"id": "C221", "title": "Columns of the subsample table stand under their names", "statement": "cpchop: in every printed row of the result table there are exactly as many numbers as column names, and each number is the result its name announces (netpermh: arithmetic mean of permx and permy divided by ntg; Pc(Swir) to Pc(Swor): the five capillary pressures; satnum_k: share of rock k, zero if the subsample has none). The names all differ, and each one is there exactly when the options and the keywords of the deck ask for it.", "quantifier": "all combinations of options, deck contents, results, rows and numbers of rock types", "why_tests_cant": "every combination of options", "anchors": ["examples/cpchop.cpp: main (result table)"]}
{"id": "C222", "title": "Tensor elements stand under their names in the tables of upscale_cond and upscale_relpermvisc", "statement": "Without interpolation, every row printed by upscale_cond holds the capillary pressure of its point under Pc, the upscaled water saturation under Sw and, under each name Rab, element (a,b) of the upscaled resistivity tensor; every row of the water (oil) table of upscale_relpermvisc holds the flow ratio, the saturation and, under Krwab (Kroab), element (a,b) of the product of the phase tensor and the inverse of the single phase tensor. With fixed conditions the diagonal elements are named, with linear and periodic conditions all nine, each once.", "quantifier": "all boundary conditions, grids, points, upscaled tensors and phases", "why_tests_cant": "every tensor and every boundary condition", "anchors": ["examples/upscale_cond.cpp: main (result table)", "examples/upscale_relpermvisc.cpp: main (result tables)"]}
{"id": "C223", "title": "Flow ratios printed by upscale_relpermvisc belong to the printed saturations only without interpolation", "statement": "upscale_relpermvisc: without interpolation every printed row holds a flow ratio and the saturation the upscaled curve gives for it. With -interpolate the number under v_w/v_o is the value of that curve, a saturation, at the printed saturation; it never leaves the range of the upscaled saturations, whatever the flow ratios are, and the row can contradict the curve.", "quantifier": "all interpolators, saturation curves, numbers of points, tensors and phases", "why_tests_cant": "every curve and every number of points", "anchors": ["examples/upscale_relpermvisc.cpp: main (result tables, option -interpolate)"]}
