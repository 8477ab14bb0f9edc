{"id": "C01", "title": "Time comparisons form one strict total order", "statement": "For any two Time values of the same time type and calendar exactly one of a<b, a==b, b<a holds; < is transitive; a<=b is not(b<a), a>=b is not(a<b), and a<b agrees with the chronological order of the (year, month, day, second, microsecond) fields. Comparing Times of different type or calendar with < or > never yields an answer: it throws.", "quantifier": "all pairs and triples of Time values", "why_tests_cant": "pairs and triples of five-field values cannot be enumerated", "anchors": ["src/base/TimeObj.cpp: Time::operator==, Time::operator<, Time::operator>", "src/base/TimeObj.h: Time::operator<=, Time::operator>="]}
{"id": "C02", "title": "Every Time operation leaves a valid date or throws", "statement": "After constructing a Time from fields or after AddSeconds/AddDays/AddMonths/AddYears/AddTime/+=, either an exception was thrown or the object holds a date that the library's own validity check (VerifyTime) accepts: month in 0..11, day within the month, 0<=second<86400, 0<=microsecond<1000000, for every calendar with a defined month table.", "quantifier": "all initial fields, all calendars, all sequences of operations", "why_tests_cant": "unbounded field values and operation sequences", "anchors": ["src/base/TimeObj.cpp: Time::NormalizeTime, Time::VerifyTime, Time::AddTime", "src/base/TimeObj.h: Time::AddSeconds, AddDays, AddMonths, AddYears"]}
{"id": "C03", "title": "Time normalisation preserves the instant", "statement": "On the no-leap calendar, constructing a Time or adding seconds/days/microseconds yields the date whose elapsed microseconds since 0000-01-01 equal the elapsed microseconds implied by the un-normalised fields; in particular no operation with representable result throws.", "quantifier": "all (possibly out of range, possibly negative) field values", "why_tests_cant": "carry/borrow over unbounded inputs", "anchors": ["src/base/TimeObj.cpp: Time::NormalizeTime", "src/base/TimeObj.h: Time::Time(int,int,int,int,int,...), AddSeconds, AddDays"]}
{"id": "C04", "title": "Time difference is the inverse of time addition", "statement": "On the no-leap calendar (t + d) - t equals d in seconds and a - b equals the elapsed time between the two dates, is antisymmetric, and is additive: (a-b)+(b-c)=(a-c); GetSeconds of a date is its elapsed seconds.", "quantifier": "all valid times and all non-negative increments", "why_tests_cant": "unbounded pairs/triples of dates", "anchors": ["src/base/TimeObj.cpp: Time::operator-, Time::operator+, Time::GetSeconds"]}
{"id": "C05", "title": "Standard calendar uses the Gregorian leap-year rule", "statement": "For every year in 0..9999 the standard calendar accepts February 29 exactly when the year is a leap year of the (proleptic) Gregorian calendar, and date arithmetic never produces February 29 in a non-leap year.", "quantifier": "all years and all dates", "why_tests_cant": "the defective years are sparse; arithmetic crosses year ends in unboundedly many ways", "anchors": ["src/base/TimeObj.cpp: Time::VerifyTime, Time::NormalizeTime"]}
{"id": "C06", "title": "Date strings round-trip", "statement": "For every valid fixed-type Time whose fields fit the format, parsing the string produced by ToString/ToLongString with FromLongString returns the same date, and distinct times print as distinct strings.", "quantifier": "all valid times", "why_tests_cant": "10^4 years x days x seconds x microseconds of values", "anchors": ["src/base/TimeObj.cpp: Time::ToString, ToLongString, ToShortString, ToDateString, FromLongString"]}
{"id": "C07", "title": "The model run ends exactly at the end time and its steps partition the interval", "statement": "Model::Go with a positive time step terminates; every step it takes has positive length not exceeding the nominal step; step lengths sum to end-start; the clock after the run equals the end time exactly; exactly one step is flagged first and exactly one last; if start>=end no step is taken and no output is made.", "quantifier": "all start, end and step times on the no-leap calendar", "why_tests_cant": "loop with unbounded trip count", "anchors": ["src/atm/Model.cpp: Model::Go", "src/base/TimeObj.cpp: Time::operator+, operator-, operator>="]}
{"id": "C08", "title": "Output schedule: initial, final and no time written twice in one run", "statement": "During one Go run each attached output manager writes the initial time first (unless started from restart), writes the final time exactly once, writes strictly increasing times, and between consecutive periodic outputs at least the output period of the schedule is consumed; when the step divides the period the outputs are exactly the multiples of the period.", "quantifier": "all start/end/step/frequency combinations", "why_tests_cant": "unbounded runs and schedules", "anchors": ["src/atm/OutputManager.cpp: InitialOutput, IsOutputNeeded, ManageOutput, FinalOutput", "src/atm/Model.cpp: Model::Go"]}
{"id": "C09", "title": "Output files hold at most the configured number of outputs", "statement": "Under every sequence of PerformOutput calls with a positive outputs-per-file limit, no file ever receives more than the limit, every file except the last receives exactly the limit, the record index passed to Output is the position within the file, and Output is never called with no file open; a new file is opened only after the previous one was closed.", "quantifier": "all call sequences and all limits", "why_tests_cant": "unbounded histories", "anchors": ["src/atm/OutputManager.cpp: PerformOutput, OpenFile/CloseFile protocol", "src/atm/OutputManager.h"]}
{"id": "C10", "title": "Workflow processes fire once per elapsed period", "statement": "A workflow process initialised at the start time and polled once per model step is performed at a step only when at least one period has elapsed since its previous schedule point, is performed at most once per step, and after n performances its next schedule point is start + (n+1) periods.", "quantifier": "all step sequences and periods", "why_tests_cant": "unbounded histories", "anchors": ["src/atm/WorkflowProcess.cpp: Initialize, IsReady, Perform", "src/atm/Model.cpp: Model::Go"]}
{"id": "C11", "title": "Container chunks are disjoint, aligned and inside the allocation", "statement": "After DataContainer::Allocate (or AttachTo of a big-enough block) every registered chunk's byte range lies inside the block, ranges of different chunks are disjoint and in registration order, every offset is a multiple of sizeof(size_t), and GetTotalByteSize is the sum of chunk sizes.", "quantifier": "all lists of chunk sizes", "why_tests_cant": "any number of chunks of any size", "anchors": ["src/base/DataContainer.cpp: PushDataChunk, GetTotalByteSize, Allocate, AttachTo, Detach", "src/base/DataArray1D.h..DataArray4D.h: GetByteSize"]}
{"id": "C12", "title": "Array element addressing is a bijection onto the allocation", "statement": "For 1D..4D arrays, distinct in-range index tuples address distinct elements, every in-range tuple addresses an element inside the allocated bytes, and every allocated element is addressed by some tuple; GetByteSize covers all elements and is a multiple of the word size with less than one word of padding.", "quantifier": "all dimension sizes and index tuples", "why_tests_cant": "unbounded dimensions", "anchors": ["src/base/DataArray1D.h", "src/base/DataArray2D.h", "src/base/DataArray3D.h", "src/base/DataArray4D.h: operator(), operator[], GetByteSize"]}
{"id": "C13", "title": "Array ownership protocol never leaks, double-frees or frees foreign memory", "statement": "Under every sequence of Allocate/SetSize/AttachToData/Detach/Deallocate/assignment/destruction on a set of arrays, memory is freed only by the array that allocated it and at most once, memory attached from outside is never freed, and after all arrays are destroyed every allocation made by an array has been freed.", "quantifier": "all operation sequences", "why_tests_cant": "unbounded histories", "anchors": ["src/base/DataArray1D.h: Allocate, AttachToData, Detach, Deallocate, operator=, ~DataArray1D", "src/base/DataArray2D.h", "src/base/DataStruct.h"]}
{"id": "C14", "title": "Array assignment copies the value", "statement": "After a = b for unattached-or-same-size arrays, a has b's dimensions and element values and b is unchanged, including the case where a and b are the same object.", "quantifier": "all dimensions, contents and aliasing", "why_tests_cant": "aliasing and unbounded contents", "anchors": ["src/base/DataArray1D.h: Assign", "src/base/DataArray2D.h: Assign", "src/base/DataArray3D.h: Assign"]}
{"id": "C15", "title": "Integer square root and power helpers", "statement": "ISqrt(n) is floor(sqrt(n)) for every unsigned 32-bit n; IntPow/IPow compute the mathematical power for non-negative exponents; Max/Min/Clamp/Sign satisfy their order-theoretic definitions.", "quantifier": "all 2^32 inputs / all exponents", "why_tests_cant": "2^32 inputs and unbounded exponents", "anchors": ["src/base/MathHelper.h: ISqrt, IntPow, IPow, Max, Min, Clamp, Sign"]}
{"id": "C16", "title": "Cubed-sphere patch layout tiles every panel", "statement": "For every processor count and base resolution accepted by ApplyDefaultPatchLayout, the patches cover every node of each of the six panels exactly once, all have the same size and are aligned with elements.", "quantifier": "all resolutions, refinement orders and processor counts", "why_tests_cant": "unbounded parameters", "anchors": ["src/atm/GridCSGLL.cpp: ApplyDefaultPatchLayout", "src/atm/PatchBox.h", "src/base/MathHelper.h: ISqrt"]}
{"id": "C17", "title": "Cartesian patch layout tiles the domain with non-empty patches", "statement": "For every processor count accepted by ApplyDefaultPatchLayout the patches cover every node exactly once and every patch is non-empty.", "quantifier": "all resolutions and processor counts", "why_tests_cant": "unbounded parameters", "anchors": ["src/atm/GridCartesianGLL.cpp: ApplyDefaultPatchLayout"]}
{"id": "C18", "title": "Each patch is owned by exactly one rank and load is balanced", "statement": "DistributePatches assigns every patch to exactly one rank, and any two ranks' patch counts differ by at most one.", "quantifier": "all patch and rank counts", "why_tests_cant": "unbounded parameters", "anchors": ["src/atm/Grid.cpp: DistributePatches, ActivateEmptyPatch"]}
{"id": "C19", "title": "Node lookup finds the unique owning patch", "statement": "GetPatchFromCoordinateIndex returns, for every node of the global domain (after periodic wrap or panel crossing), the index of the unique patch containing it, independently of the order and batch of the queried nodes; nodes outside a non-periodic boundary give the invalid index.", "quantifier": "all layouts, all query lists", "why_tests_cant": "the function carries a cache across queries, so results could depend on history", "anchors": ["src/atm/GridCSGLL.cpp: GetPatchFromCoordinateIndex", "src/atm/GridCartesianGLL.cpp: GetPatchFromCoordinateIndex"]}
{"id": "C20", "title": "Crossing a cubed-sphere panel edge and coming back is the identity", "statement": "RelativeCoord maps every index within one panel-width of a panel edge to an in-range index of the neighbouring panel; distinct source nodes across the same edge map to distinct nodes; stepping across an edge by d nodes and stepping back by d nodes from the image returns to the start; the image is geometrically adjacent: edge node k of one panel and its image lie at the same physical point of the cube edge.", "quantifier": "all resolutions, panels, edges and offsets", "why_tests_cant": "resolution is unbounded", "anchors": ["src/atm/CubedSphereTrans.h: RelativeCoord, RelativePanel"]}
{"id": "C21", "title": "Panel adjacency tables agree with each other", "statement": "RelativePanel, PanelFromDirection, DirectionFromPanel, OpposingDirection and the switch flags returned by RelativeCoord and GetOpposingDirection describe one symmetric adjacency relation: q is the neighbour of p in direction d iff p is the neighbour of q in the opposing direction of d, and the along-edge index reversal flag is the same seen from both sides.", "quantifier": "all panels, directions and indices", "why_tests_cant": "four hand-written tables maintained separately", "anchors": ["src/atm/CubedSphereTrans.h: RelativePanel, PanelFromDirection, DirectionFromPanel, OpposingDirection, RelativeCoord", "src/atm/GridCSGLL.cpp: GetOpposingDirection", "src/atm/Direction.cpp"]}
{"id": "C22", "title": "Halo exchange delivers each interior value to the matching halo cell", "statement": "Packing an exchange buffer on one patch and unpacking it on the opposing side stores, for every variable, level and halo depth, the source node at depth d inside the edge into the halo cell at depth d outside the neighbour's edge at the matching (possibly reversed) lateral position, for edges and corners; unpacking never writes interior cells and consumes exactly the values packed.", "quantifier": "all patch sizes, halo widths, levels, variables and directions", "why_tests_cant": "unbounded sizes; 8 directions x reversal", "anchors": ["src/atm/Connectivity.cpp: ExchangeBuffer::Pack, ExchangeBuffer::Unpack, Reset", "src/atm/GridPatch.cpp: PackExchangeBuffer, UnpackExchangeBuffer"]}
{"id": "C23", "title": "Exchange completes with every message delivered once under any arrival order", "statement": "For every set of registered exchange buffers with pairwise matching registrations and every order in which messages arrive, one Exchange unpacks every registered receive buffer exactly once with the data packed for it, no message is lost, and the loop terminates; a buffer never observes data of the previous exchange.", "quantifier": "all registrations and all message arrival orders", "why_tests_cant": "nondeterministic schedules", "anchors": ["src/atm/Connectivity.cpp: ExchangeBufferRegistry::PrepareExchange, Send, WaitReceive, WaitSend", "src/atm/Grid.cpp: Exchange"]}
{"id": "C24", "title": "Exchange buffers are disjoint and large enough", "statement": "Registry allocation places the send and receive buffers of all registered exchanges in disjoint ranges inside the allocated block, and the bytes written by packing all active data of one exchange never exceed the buffer's capacity.", "quantifier": "all registrations", "why_tests_cant": "unbounded registrations and sizes", "anchors": ["src/atm/Connectivity.cpp: ExchangeBufferRegistry::Register, Allocate, ExchangeBuffer::AttachBuffers/AttachRecvBuffers, GetMessageSize"]}
{"id": "C25", "title": "Direct stiffness summation makes fields continuous", "statement": "After halo exchange and ApplyDSS every pair of coincident nodes (two sides of an element edge, inside a patch or between patches) hold the same value; nodes interior to elements are unchanged; applying DSS to an already continuous field changes nothing; the sum over coincident nodes is preserved.", "quantifier": "all element counts (order >= 2) and all field values", "why_tests_cant": "unbounded grids and real values", "anchors": ["src/atm/GridCartesianGLL.cpp: ApplyDSS", "src/atm/GridCSGLL.cpp: ApplyDSS"]}
{"id": "C26", "title": "Results do not depend on the domain decomposition", "statement": "The values produced by exchange + DSS on a decomposed domain equal those produced on the undecomposed periodic domain, for every split into element-aligned patches, hence for every processor count.", "quantifier": "all decompositions and field values", "why_tests_cant": "all splits of all sizes", "anchors": ["src/atm/GridCartesianGLL.cpp: ApplyDSS, ApplyDefaultPatchLayout", "src/atm/Grid.cpp: Exchange"]}
{"id": "C27", "title": "LinearCombineData is the linear combination of the original instances", "statement": "LinearCombineData(c, d) sets instance d to sum_m c_m * (old instance m), leaves all other instances unchanged (also when d is among the sources), and throws for out-of-range destination or too many coefficients.", "quantifier": "all coefficient vectors, instance contents and destinations", "why_tests_cant": "unbounded data and aliasing of destination and sources", "anchors": ["src/atm/GridPatch.cpp: LinearCombineData, CopyData, ZeroData", "src/base/DataArray4D.h: AddProduct, Scale"]}
{"id": "C28", "title": "Explicit Runge-Kutta steppers realise their Butcher tableau", "statement": "For every tendency function, state and step, one step of the Forward Euler, RK4, SSP-RK3, KGU(3,5) and SSP-RK(5,3) options (no filter, no hyperdiffusion) gives exactly the state of the textbook Butcher tableau; step reduces to u + dt*F for constant tendencies and matches the exponential series to the advertised order for linear tendencies.", "quantifier": "all tendency functions, states, steps", "why_tests_cant": "universally quantified function argument", "anchors": ["src/atm/TimestepSchemeERK.cpp: Step", "src/atm/TimestepSchemeStrang.cpp: Step"]}
{"id": "C29", "title": "IMEX steppers realise their additive Runge-Kutta tableaux", "statement": "For all explicit and implicit tendencies, one step of ARS222, ARS232, ARS343, ARS443, ARK232, SSP3(3,3,2) and GARK2 gives the state of the published additive Runge-Kutta pair (each stage u0 + dt*sum a_ij F(U_j) + dt*sum ahat_ij G(U_j)).", "quantifier": "all pairs of tendencies, all states and steps", "why_tests_cant": "universally quantified function arguments", "anchors": ["src/atm/TimestepSchemeARS222.cpp", "src/atm/TimestepSchemeARS232.cpp", "src/atm/TimestepSchemeARS343.cpp", "src/atm/TimestepSchemeARS443.cpp", "src/atm/TimestepSchemeARK232.cpp", "src/atm/TimestepSchemeSSP3332.cpp", "src/atm/TimestepSchemeGARK2.cpp"]}
{"id": "C30", "title": "A step depends only on the current state, for tracers as for state variables", "statement": "The result of a time step is a function of the current state and tracers (instance 0): it does not depend on what earlier steps left in the scratch instances, and tracers are advanced by the same tableau as the state.", "quantifier": "all contents of scratch instances", "why_tests_cant": "left-over contents depend on arbitrary history", "anchors": ["src/atm/TimestepScheme*.cpp: Step"]}
{"id": "C31", "title": "Restart files reproduce the model state", "statement": "Reading a composite restart file back returns, for every patch and rank count, exactly the time, parameters, geometry and state bytes written, whatever number of ranks wrote it, whatever number of ranks reads it, and in whatever order messages reached the root.", "quantifier": "all patch sizes, rank counts and arrival orders", "why_tests_cant": "nondeterministic schedules, unbounded layouts", "anchors": ["src/atm/OutputManagerComposite.cpp: Output, Input"]}
{"id": "C32", "title": "Consolidation ends exactly when every expected message arrived", "statement": "ConsolidationStatus reports Done exactly when, for every data type and location requested, data of every patch was received once; it never reports Done early and the root's receive loop consumes exactly the messages that the ranks send.", "quantifier": "all message orders, patch counts and requested types", "why_tests_cant": "nondeterministic schedules", "anchors": ["src/atm/ConsolidationStatus.cpp", "src/atm/ConsolidationStatus.h", "src/atm/Grid.cpp: ConsolidateDataToRoot"]}
{"id": "C33", "title": "Lagrange interpolation coefficients reproduce polynomials", "statement": "LagrangianPolynomialCoeffs for n distinct nodes sum to 1, are the Kronecker delta at nodes, and reproduce every polynomial of degree < n; DiffLagrangianPolynomialCoeffs give the exact derivative of every such polynomial (hence sum to zero), both at nodes and off nodes.", "quantifier": "all n, all distinct node sets, all evaluation points", "why_tests_cant": "real-valued inputs of any dimension", "anchors": ["src/base/PolynomialInterp.cpp: LagrangianPolynomialCoeffs, DiffLagrangianPolynomialCoeffs, Interpolate"]}
{"id": "C34", "title": "Column operators compose", "statement": "Applying the composition built by ComposeWith equals applying the second operator after the first for all columns, provided stored begin/end ranges cover the non-zeros; the identity operator is neutral; the strided and reference-subtracting variants agree with the plain one.", "quantifier": "all operators, sizes and columns", "why_tests_cant": "unbounded sizes, real values", "anchors": ["src/atm/LinearColumnOperator.cpp: ComposeWith, InitializeIdentity", "src/atm/LinearColumnOperator.h: Apply, ApplyWithRef"]}
{"id": "C35", "title": "Cubed-sphere coordinate conversions are mutually inverse", "statement": "XYZFromXYP lands on the unit sphere and is inverted by the RLL/XYP conversions on the interior of every panel; conversion between panels (XYPFromXYP) preserves the point on the sphere and throws exactly when the point is not in the target panel's hemisphere.", "quantifier": "all points of all panels", "why_tests_cant": "continuum of points", "anchors": ["src/atm/CubedSphereTrans.cpp: XYZFromXYP, XYPFromXYP, RLLFromXYP, XYPFromRLL, ABPFromRLL, RLLFromABP"]}
{"id": "C36", "title": "Vector conversions are mutually inverse and preserve the physical vector", "statement": "VecTransABPFromRLL and VecTransRLLFromABP are inverse to each other away from the poles and agree with the tangent map of the coordinate embedding; VecPanelTrans between adjacent panels preserves the physical tangent vector, and CoVecPanelTrans preserves the pairing with vectors; at the poles the conversion is the limit of some meridian.", "quantifier": "all points, all vectors, all panel pairs", "why_tests_cant": "continuum of points; 36 hand-written formulae", "anchors": ["src/atm/CubedSphereTrans.cpp: VecTransABPFromRLL, VecTransRLLFromABP, CoVecTransABPFromRLL, CoVecTransRLLFromABP", "src/atm/CubedSphereTrans.h: VecPanelTrans, CoVecPanelTrans, VecToP*FromP*"]}
{"id": "C37", "title": "Grid spacing nodes are increasing and periodic", "statement": "For uniform, Gauss-Lobatto, repeated Gauss-Lobatto and mixed spacings GetNode(ix + nodes per element) = GetNode(ix) + element width and nodes are (weakly) increasing, for all integer indices including negative halo indices; node areas over one element sum to the element width.", "quantifier": "all integer indices, orders and widths", "why_tests_cant": "unbounded, negative indices only occur in halos", "anchors": ["src/atm/GridSpacing.cpp: GetNode, GetEdge, GetNodeNormArea, GetEdgeNormArea"]}
{"id": "C38", "title": "Thermodynamic conversions are inverse and stay consistent after any setter", "statement": "For all positive constants with cp>R, PressureFromRhoTheta/RhoThetaFromPressure, ExnerPressureFromRhoTheta/RhoThetaFromExnerPressure and ExnerPressureFromPressure/PressureFromExnerPressure are inverse on positive arguments, and the three routes between pressure, Exner pressure and rho-theta commute; after any sequence of setters the cached kappa, gamma and pressure scaling match the current constants.", "quantifier": "all constants, arguments and setter sequences", "why_tests_cant": "real-valued inputs and unbounded histories", "anchors": ["src/atm/PhysicalConstants.h"]}
{"id": "C39", "title": "Vertical stretching maps the unit column onto itself monotonically", "statement": "Each stretching function fixes 0 and 1, is strictly increasing on [0,1], and the returned derivative is its derivative (except at the kink of the piecewise one).", "quantifier": "all heights in [0,1]", "why_tests_cant": "continuum of inputs", "anchors": ["src/atm/VerticalStretch.h: VerticalStretchUniform, VerticalStretchCubic, VerticalStretchPiecewiseLinear"]}
{"id": "C40", "title": "Givens rotations annihilate and preserve length", "statement": "GivensRotationMatrix(a,b) returns c,s with c^2+s^2=1, -s*a+c*b=0, so that c*a+s*b squares to a^2+b^2, for every pair of reals; rotations applied to the GMRES column preserve its norm.", "quantifier": "all pairs of reals", "why_tests_cant": "continuum of inputs", "anchors": ["src/atm/JacobianFreeNewtonKrylov.cpp: GivensRotationMatrix"]}
{"id": "C41", "title": "GMRES workspace accesses stay in bounds", "statement": "Every array access of PerformJFNK_NewtonStep with m iterations per restart stays inside the arrays allocated by InitializeJFNK.", "quantifier": "all equation counts and iteration counts", "why_tests_cant": "the failing access only happens on the last inner iteration without convergence", "anchors": ["src/atm/JacobianFreeNewtonKrylov.cpp: InitializeJFNK, PerformJFNK_NewtonStep"]}
{"id": "C42", "title": "Command-line parsing assigns each option its own argument", "statement": "For every argument vector ParseCommandLine either stops with an error or leaves each parameter at the value of its last occurrence (or its default), consuming each option's arguments exactly once and never reading past argv.", "quantifier": "all argument vectors and all parameter tables with distinct non-empty names", "why_tests_cant": "unbounded argument lists", "anchors": ["src/base/CommandLine.h: ParseCommandLine, BeginCommandLine, CommandLineParameter*::Activate"]}
{"id": "C43", "title": "Preference files parse to their key/value pairs", "statement": "ParsePreferences on the rendering of any list of well-formed key/value lines returns exactly those pairs, ignores comments and blank lines, and never reads outside the line.", "quantifier": "all files made of newline-terminated lines that fit the line buffer", "why_tests_cant": "unbounded text", "anchors": ["src/base/Preferences.cpp: ParsePreferences"]}
{"id": "C44", "title": "Announcement nesting is balanced", "statement": "After any balanced sequence of start/end block announcements that fits the 16 available levels (settings unchanged in between) the indentation level returns to its initial value, the text is the indented rendering of the nest, and after any calls whatsoever the level is within its allowed range.", "quantifier": "all call sequences", "why_tests_cant": "unbounded nesting", "anchors": ["src/base/Announce.cpp: AnnounceStartBlock, AnnounceEndBlock"]}
{"id": "C45", "title": "Variable storage slots do not collide", "statement": "For every equation set and vertical staggering the (location, index) slot assigned to each prognostic variable is unique, indices at each location are contiguous from zero, and the counts per location equal the number of variables stored there.", "quantifier": "all equation sets, component counts and staggerings", "why_tests_cant": "component count is unbounded in the model", "anchors": ["src/atm/Grid.cpp: InitializeVerticalCoordinate, GetVarsAtLocation"]}
{"id": "C46", "title": "Global diagnostics do not depend on the decomposition", "statement": "Sum, L1, L2 and Linf checksums and the total energy/mass integrals over all patches equal the same reduction over the undivided domain for every partition of the nodes into patches (over the reals).", "quantifier": "all partitions and fields", "why_tests_cant": "all splits", "anchors": ["src/atm/GridPatch.cpp: Checksum, ComputeTotalEnergy", "src/atm/Grid.cpp: Checksum, ComputeTotalEnergy"]}
{"id": "C47", "title": "Interpolants reproduce polynomials", "statement": "LinearInterpolate, QuadraticInterpolate and CubicInterpolate return the exact value of every polynomial of degree one, two and three sampled at their nodes, and pass through arbitrary data at the nodes.", "quantifier": "all real coefficients, node spacings and evaluation points", "why_tests_cant": "infinitely many coefficients and evaluation points", "anchors": ["src/base/MathHelper.cpp: LinearInterpolate, QuadraticInterpolate, CubicInterpolate"]}
{"id": "C48", "title": "Activating and deactivating patches keeps the active list exact", "statement": "From a duplicate-free list of active patches, DeactivatePatch removes exactly the given patch and keeps the order of the others, and undoes ActivateEmptyPatch; a patch activated twice is not fully removed.", "quantifier": "all lists of active patches", "why_tests_cant": "erasing inside the loop skips elements for some lists only", "anchors": ["src/atm/Grid.cpp: ActivateEmptyPatch, DeactivatePatch"]}
{"id": "C49", "title": "Quadrature tables have their nominal degree of exactness", "statement": "On every interval the tabulated n-point Gauss-Lobatto rule integrates every polynomial of degree at most 2n-3, and the n-point Gauss rule every polynomial of degree at most 2n-1, up to the rounding of the printed digits; nodes increase and stay in the interval, Lobatto rules include both ends, weights are positive. Above ten points the weights computed at the roots of the Legendre polynomial (or of its slope) make the rule exact to the same degree.", "quantifier": "all counts, intervals and polynomials", "why_tests_cant": "continuum of polynomials and intervals; a wrong table entry only shows up as reduced accuracy", "anchors": ["src/base/GaussQuadrature.cpp: GetPoints", "src/base/GaussLobattoQuadrature.cpp: GetPoints", "src/base/LegendrePolynomial.cpp"]}
{"id": "C50", "title": "Vertical interpolation operators are exact and local", "statement": "For every column of elements, LinearColumnInterpFEM::Initialize builds, without out-of-bounds access, an operator whose every row reproduces at its output point all polynomials of the element order (from interfaces: one more coefficient, up to the 1e-12 snapping to element edges), using only points of the surrounding element or its neighbour; zero boundaries only clear the rows at 0 and 1. The reconstructed variants are exact to half the order everywhere and to order minus one away from the boundaries.", "quantifier": "all columns, orders, element counts, output points and polynomials", "why_tests_cant": "continuum of columns and points; an out-of-bounds write of one coefficient is silent", "anchors": ["src/atm/LinearColumnOperatorFEM.cpp: LinearColumnInterpFEM::Initialize, InitializeReconstructed"]}
{"id": "C51", "title": "Vertical differentiation operators are exact and local", "statement": "Every row of the operators built by LinearColumnDiffFEM (interface method, GLL nodes, reconstructed) returns the exact derivative at its output point of every polynomial of the order of the element or stencil, from the points of that stencil only.", "quantifier": "all columns, orders, element counts, output points and polynomials", "why_tests_cant": "continuum of columns and points", "anchors": ["src/atm/LinearColumnOperatorFEM.cpp: LinearColumnDiffFEM::InitializeInterfaceMethod, InitializeGLLNodes, InitializeReconstructed"]}
{"id": "C52", "title": "Shallow-water energy diagnostic is the energy of the integrated state", "statement": "At every node ComputeTotalEnergy for the shallow-water equations adds area times half depth times squared speed plus potential energy, with the speed of the velocity stored in (U, V) as StepShallowWater interprets it (covariant components).", "quantifier": "all metrics, states and nodes", "why_tests_cant": "on a unit Cartesian grid both readings agree; conservation plots hide a constant factor", "anchors": ["src/atm/GridPatch.cpp: ComputeTotalEnergy", "src/atm/HorizontalDynamicsFEM.cpp: StepShallowWater"]}
{"id": "C53", "title": "Shallow-water step conserves mass and tracers", "statement": "For every horizontal order, state, metric and topography, StepShallowWater leaves the quadrature-weighted sum of J h and of J q unchanged in every element; followed by direct stiffness summation the sum over the whole plane or cubed sphere is unchanged; a tracer proportional to the depth stays so; nothing outside the patch interior is written.", "quantifier": "all tabulated orders, states, time steps, metrics with nonzero Jacobian, element counts and decompositions", "why_tests_cant": "runs check one flow to rounding; conservation for every state needs the algebra of the derivative and stiffness tables", "anchors": ["src/atm/HorizontalDynamicsFEM.cpp: StepShallowWater", "src/atm/GridGLL.cpp: Initialize", "src/atm/GridCSGLL.cpp: ApplyDSS", "src/atm/GridCartesianGLL.cpp: ApplyDSS"]}
{"id": "C54", "title": "Shallow-water step exchanges energy without loss", "statement": "In every element the rate of change of the total (kinetic plus potential) energy under StepShallowWater is zero for every state; an irrotational state stays irrotational without rotation; water at rest with a level surface over any topography stays at rest.", "quantifier": "all tabulated orders, states, symmetric metrics, topographies", "why_tests_cant": "energy errors of one run mix time truncation with spatial ones; the spatial identity is for all states", "anchors": ["src/atm/HorizontalDynamicsFEM.cpp: StepShallowWater"]}
{"id": "C55", "title": "Reference element tables", "statement": "The derivative matrix of the reference element differentiates every polynomial determined by the nodes, annihilates constants, and the stiffness matrix is its transpose under the quadrature, for the hard-coded fourth order tables and the computed ones.", "quantifier": "all tabulated orders, all polynomials", "why_tests_cant": "the hard-coded decimals are used without any check; a wrong digit only degrades accuracy or conservation", "anchors": ["src/atm/GridGLL.cpp: Initialize"]}
{"id": "C56", "title": "A Newton-Krylov step leaves the residual it reports", "statement": "For every system of linear equations, when PerformJFNK_NewtonStep returns a value e without exception or undefined access, the residual at the new state is exactly e times the residual at the old state and e is within the tolerance; PerformJFNK reduces the residual accordingly.", "quantifier": "all linear systems, sizes, start states, tolerances, iteration limits", "why_tests_cant": "the residual is only estimated through a chain of rotations; a mistake in the triangular indexing shows as slow convergence on some matrices only", "anchors": ["src/atm/JacobianFreeNewtonKrylov.cpp: PerformJFNK_NewtonStep, PerformJFNK"]}
{"id": "C57", "title": "Damaged restart files are refused", "statement": "Reading a restart file that does not begin with the check word, or that is shorter than the state it should hold, ends in an exception and never in a model state that was not written.", "quantifier": "all files, cut at any place, all rank counts", "why_tests_cant": "a run that stops while writing can cut the file at any byte", "anchors": ["src/atm/OutputManagerComposite.cpp: Input"]}
{"id": "C58", "title": "Flux correction function", "statement": "For every accepted type and order, GetDerivatives returns the derivatives, at the given nodes of [0,1], of the unique correction polynomial of that type, and every access stays inside its arrays.", "quantifier": "all types and orders, all node lists, every solution the linear solver may return", "why_tests_cant": "the model only ever uses one type; a wrong row of the system gives another polynomial of the same degree with the same end values", "anchors": ["src/atm/FluxCorrectionFunction.cpp: GetDerivatives"]}
{"id": "C59", "title": "Flux-corrected derivative", "statement": "For every column the flux-corrected derivative operator differentiates, inside each finite element, the element polynomial corrected by the jumps so that it is continuous across elements, and takes the mean of both sides on element edges, and is exact on every function that is one polynomial of the element's degree.", "quantifier": "all node and edge positions, orders, element counts, output points, column data", "why_tests_cant": "tests use evenly spaced columns where a missing metric factor cancels", "anchors": ["src/atm/LinearColumnOperatorFEM.cpp: InitializeFluxCorrectionMethod"]}
{"id": "C60", "title": "Weak derivative from levels to interfaces", "statement": "The variational derivative from levels to interfaces is minus the adjoint of the derivative of interface functions: for every test function, summation by parts holds exactly with no flux through the ends, so the column total of the result vanishes and a constant column gives zero away from the ends.", "quantifier": "all columns, orders and element counts, all data", "why_tests_cant": "conservation errors at shared interfaces are small and hide under truncation errors", "anchors": ["src/atm/LinearColumnOperatorFEM.cpp: InitializeVariationalNodeToREdge"]}
{"id": "C61", "title": "The second derivative conserves and dissipates", "statement": "The diffusion operator on interfaces and on levels has column integral zero for every profile and never increases the squared norm, for every column.", "quantifier": "all columns including stretched ones, orders, element counts, all data", "why_tests_cant": "an operator with the right consistency on smooth data can still create mass or energy at element edges of unequal elements", "anchors": ["src/atm/LinearColumnOperatorFEM.cpp: LinearColumnDiffDiffFEM"]}
{"id": "C62", "title": "The jump penalty is conservative", "statement": "The discontinuous penalty operator moves exactly what leaves one element into its neighbour through their common edge, in proportion to the jump of the reconstructions and the upwind weights, and vanishes for profiles without jumps.", "quantifier": "all columns, orders, element counts, edge velocities and data", "why_tests_cant": "left and right operators are built and stored in separate sparse arrays; a swapped row only shows for velocities of one sign", "anchors": ["src/atm/LinearColumnOperatorFEM.cpp: LinearColumnDiscPenaltyFEM, Apply"]}
{"id": "C63", "title": "Legendre evaluation is value and derivative of the Legendre polynomial", "statement": "For every degree of zero or more and every point EvaluateValueAndDerivative returns the value and the derivative of the polynomial of that degree that is one at one and orthogonal on [-1,1] to all polynomials of lower degree; a negative degree leaves both outputs unset.", "quantifier": "all degrees, all points", "why_tests_cant": "nine closed forms and a recurrence with a separate branch at the ends; degree and point are unbounded", "anchors": ["src/base/LegendrePolynomial.cpp: EvaluateValueAndDerivative"]}
{"id": "C64", "title": "The root finder returns ordered symmetric roots", "statement": "AllRoots and AllDerivativeRoots return as many values as there are roots, in ascending order and symmetric about zero; when the loop ends by its test the polynomial (or its slope) is below 1e-14 at each value; each move is Newton's step for the polynomial deflated by the other estimates, which ends on the missing root when the others are roots; refusals happen exactly for negative degrees and null arrays.", "quantifier": "all degrees and all starting estimates of a pass", "why_tests_cant": "symmetry and the count of roots are statements about every degree; a sign error in the deflation only slows the loop down", "anchors": ["src/base/LegendrePolynomial.cpp: AllRoots, AllDerivativeRoots"]}
{"id": "C65", "title": "The tracer filters keep mass and leave no negative value", "statement": "Filtering an element or a column whose mass is not negative keeps its mass, makes every value lie between zero and the positive part of the old one, and changes nothing if no value was negative; elements and columns do not interact. With negative mass every positive value becomes negative.", "quantifier": "all values, positive areas, element sizes and patches", "why_tests_cant": "a wrong ratio or comparison shows only for fields with values of both signs, and mass errors of one element are hidden in totals", "anchors": ["src/atm/HorizontalDynamicsFEM.cpp: FilterNegativeTracers", "src/atm/VerticalDynamicsFEM.cpp: FilterNegativeTracers"]}
{"id": "C66", "title": "Scalar diffusion is a conservative, symmetric, dissipative operator on the selected components", "statement": "Tested against any field the update is -dt nu times the integral of grad psi . grad k with the patch's own derivative matrix and metric; it keeps the mass of each element, leaves constants alone and, for small dt, does not increase the integral of the square. Exactly the selected components and levels (all scalars and tracers, or one component) are written, at the location of each variable; other arguments are refused. With all components selected and removal of the reference state, tracers read an unset pointer.", "quantifier": "all fields, metrics, coefficients, component indices, patches, orders 2 to 10", "why_tests_cant": "exact discrete identities over all metrics and fields; a swapped index in a metric term keeps tests on orthogonal grids green", "anchors": ["src/atm/HorizontalDynamicsFEM.cpp: ApplyScalarHyperdiffusion"]}
{"id": "C67", "title": "Curl, divergence and velocity diffusion satisfy the discrete energy identity", "statement": "On both grids the stored divergence and vorticity are div and curl of the covariant velocity; gradients have no vorticity. The diffusion update tested against any velocity is dt times the integrals of the products of divergences and of vorticities, so it removes kinetic energy for the sign it is called with, leaves a velocity without divergence and vorticity alone, and writes only U (and V outside x-z slices) inside the patch.", "quantifier": "all velocities, metrics with J^2 det g = 1, coefficients, orders 2 to 10", "why_tests_cant": "the identity couples the metric, the Jacobian and both derivative matrices; errors in cross terms vanish on orthogonal grids", "anchors": ["src/atm/GridPatchCSGLL.cpp: ComputeCurlAndDiv", "src/atm/GridPatchCartesianGLL.cpp: ComputeCurlAndDiv", "src/atm/HorizontalDynamicsFEM.cpp: ApplyVectorHyperdiffusion"]}
{"id": "C68", "title": "Friction contracts towards the reference state", "statement": "For dt nu >= 0 friction moves a value towards the reference by the factor (1 + dt nu / 10)^-10, never past it, and leaves a value equal to the reference or a node without friction alone; exactly the components of the equation set's list stored at that location are damped, once each.", "quantifier": "all values, strengths, time steps, equation sets", "why_tests_cant": "unconditional in the time step; a component damped twice or at the wrong location is invisible when the state equals the reference", "anchors": ["src/atm/HorizontalDynamicsFEM.cpp: ApplyRayleighFriction"]}
{"id": "C69", "title": "The step after the sub-cycle", "statement": "It is refused exactly when the working index coincides with another or the order is not 0, 2 or 4 while some coefficient is not zero; only the updated index (and the working index for order four) changes; without coefficients it copies and damps; otherwise filter, averaging and friction come last in this order. For order four the two sub-steps with averaging between and after give the same result, since friction commutes with the averaging of equal nodes; for order two the sub-step interface never touches the updated index.", "quantifier": "all operators, data, indices, coefficients", "why_tests_cant": "quantifies over all operators and aliasing patterns of the indices", "anchors": ["src/atm/HorizontalDynamicsFEM.cpp: StepAfterSubCycle, SubStepAfterSubCycle, GetSubStepAfterSubCycleCount"]}
{"id": "C70", "title": "Diffusion and hyperdiffusion over the whole domain", "statement": "On the periodic plane and the cubed sphere, diffusing element by element and averaging shared nodes keeps the total mass; tested with any single-valued field the change is -dt nu times the integral of grad psi . grad k over the domain; for order four the product of a single-valued field with its change is -dt nu times the integral of the square of the averaged Laplacian.", "quantifier": "all resolutions, patch layouts, fields, metrics with single-valued Jacobian, orders 2 to 10", "why_tests_cant": "combines element operators with averaging across patches and panels for every resolution", "anchors": ["src/atm/HorizontalDynamicsFEM.cpp: StepAfterSubCycle", "src/atm/GridCSGLL.cpp: ApplyDSS", "src/atm/GridCartesianGLL.cpp: ApplyDSS"]}
{"id": "C71", "title": "The nonhydrostatic horizontal step conserves", "statement": "On every level of every element the density, rho theta and each tracer, summed with w_i w_j J, are the same after StepNonhydrostaticPrimitive as before, with and without uniform diffusion; on the periodic plane and on the cubed sphere, for any decomposition into patches, so are the totals over a level after the averaging across element edges.", "quantifier": "all states, metrics, settings, time steps, resolutions, patch layouts, orders 2 to 10", "why_tests_cant": "quantifies over all real states, terrain-following metrics and resolutions", "anchors": ["src/atm/HorizontalDynamicsFEM.cpp: StepNonhydrostaticPrimitive"]}
{"id": "C72", "title": "Constant ratios stay constant", "statement": "A tracer that is a constant multiple of the density in an element keeps the ratio through StepNonhydrostaticPrimitive, and so does rho theta of constant potential temperature.", "quantifier": "all velocities, densities, metrics, ratios", "why_tests_cant": "quantifies over all real states", "anchors": ["src/atm/HorizontalDynamicsFEM.cpp: StepNonhydrostaticPrimitive"]}
{"id": "C73", "title": "The energy budget of the nonhydrostatic horizontal step", "statement": "The time derivative, at dt = 0, of the total (kinetic, potential and internal) energy of a level of an element under StepNonhydrostaticPrimitive with W held is exactly the work of the product of the velocity across levels with the vertical shear and slope of W; it vanishes when the air moves along the levels. The Exner function the code uses is the derivative of the internal energy by rho theta.", "quantifier": "all states with positive rho theta, metrics, terrain, orders 2 to 10", "why_tests_cant": "an exact cancellation of pressure gradient, rotation, gravity and transport terms for all real states", "anchors": ["src/atm/HorizontalDynamicsFEM.cpp: StepNonhydrostaticPrimitive"]}
{"id": "C74", "title": "Boundary, frame and rest of the nonhydrostatic horizontal step", "statement": "With W on interfaces no air crosses the bottom after the step; nothing outside the interior nodes, above the last level or on the top interface is written; an atmosphere at rest with horizontally uniform rho theta over flat ground stays as it is; an isentropic atmosphere in hydrostatic balance at rest over terrain feels no horizontal force, with no truncation error. With W on levels the code instead reads the element metric outside its array in every patch with a halo, and rho theta kept on interfaces is never advanced.", "quantifier": "all states, metrics, orders, patch sizes", "why_tests_cant": "quantifies over all terrain and states; the out-of-bounds read need not show in a test", "anchors": ["src/atm/HorizontalDynamicsFEM.cpp: StepNonhydrostaticPrimitive"]}
{"id": "C75", "title": "Uniform diffusion", "statement": "Uniform diffusion acts on the difference of the initial and the reference state: tested against any velocity, the change of U and V is minus dt nu times the products of divergences and of curls, so the difference loses energy, and a state equal to the reference is not changed; rho theta and W are diffused likewise; tracers are diffused down the gradient of the mixing ratio with weight J rho, so at rest the sum of J q (change) is not positive.", "quantifier": "all states, reference states, coefficients, metrics, orders 2 to 10", "why_tests_cant": "signs of real-valued sums for all states", "anchors": ["src/atm/HorizontalDynamicsFEM.cpp: StepExplicit, StepNonhydrostaticPrimitive"]}
{"id": "C76", "title": "Budget of a column in the implicit system", "statement": "The column operators used by the vertical step exist for finite volumes of even order and for finite elements. For either, the sum over a column of weight times Jacobian times F (the residual of BuildF) of rho or rho theta is the change of content divided by dt, minus the upwind penalty and, for rho theta, minus uniform diffusion: vertical transport neither creates nor destroys. So a root of F has the content of the initial column, unless upwinding meets varying Jacobians (refuted) or uniform diffusion of rho theta is on (refuted).", "quantifier": "all columns, metrics, states, orders, numbers of levels, time steps", "why_tests_cant": "an exact cancellation over all states; roundoff-level drift and drift by an operator defect look alike in a test", "anchors": ["src/atm/VerticalDynamicsFEM.cpp: PrepareColumn, BuildF", "src/atm/GridGLL.cpp: Initialize"]}
{"id": "C77", "title": "One Newton step conserves", "statement": "Whatever solution the linear solver returns for the system of one Newton step from the initial state, the column content of rho and rho theta is unchanged by StepImplicit and W keeps its values on the bottom and top interfaces; the explicit evaluation of the same terms has the same two properties.", "quantifier": "all columns, metrics, states with non-zero Jacobians, orders, time steps", "why_tests_cant": "conservation holds although a single Newton step does not solve the nonlinear system; no finite set of columns shows it", "anchors": ["src/atm/VerticalDynamicsFEM.cpp: StepImplicit, StepExplicit, StepImplicitTermsExplicitly"]}
{"id": "C78", "title": "The Jacobian matrix is the derivative of F", "statement": "Every row of the matrix the code assembles, applied to a direction, is the derivative of the corresponding component of F in that direction, including the Exner pressure, Clark's form of vertical advection and the absolute values of upwinding. Exactly two terms are missing: the shear of the horizontal wind over sloping levels and uniform diffusion.", "quantifier": "all states with positive rho theta and non-zero velocity across the interfaces, directions, metrics, orders", "why_tests_cant": "finite differences show a derivative to a few digits at a few states only; the code has such a check, disabled", "anchors": ["src/atm/VerticalDynamicsFEM.cpp: BuildJacobianF, BuildJacobianF_LOR_RhoTheta_Pi, BuildJacobianF_Diffusion"]}
{"id": "C79", "title": "The band array holds the matrix", "statement": "For all vertical orders in the table of half-widths, every matrix entry outside the band is zero, what DGBSV reads of the array for an entry inside it is the sum of the additions to that entry, and each row product is that of the matrix; so the solved system is the Newton system. The same holds for the tracer matrix if the column has more than 3 (2 o - 1) levels; with at most 2 (2 o - 1) levels the code writes beyond the array (refuted).", "quantifier": "all columns of the stated operator families, states, orders of the table; all numbers of levels", "why_tests_cant": "an entry outside the band silently lands in another row; it depends on order and number of levels", "anchors": ["src/atm/VerticalDynamicsFEM.h: MatFIx, TracerMatFIx", "src/atm/VerticalDynamicsFEM.cpp: Initialize, BuildJacobianF, UpdateColumnTracers"]}
{"id": "C80", "title": "Columns at rest", "statement": "A column at rest, equal to its reference where uniform diffusion acts, has F = 0 if and only if the discrete hydrostatic relation holds at every interior interface; both the explicit and the implicit step then leave it as it is (the implicit one if the matrix is not singular).", "quantifier": "all columns, operators, metrics, states", "why_tests_cant": "an equivalence over all states", "anchors": ["src/atm/VerticalDynamicsFEM.cpp: BuildF, StepImplicit, StepExplicit"]}
{"id": "C81", "title": "Tracers of a column", "statement": "A tracer whose density is a multiple of rho stays that multiple after StepImplicit and after the fully explicit step; the column content of any tracer is unchanged by the solved system; implicit uniform diffusion of tracers is refused. Where StepImplicitTermsExplicitly is used without m_fFullyExplicit the first claim is false (refuted): rho moves with the old vertical velocity and tracers with the new one.", "quantifier": "all columns, metrics, multiples, states, operators", "why_tests_cant": "consistency between two separately assembled linear systems for all states", "anchors": ["src/atm/VerticalDynamicsFEM.cpp: UpdateColumnTracers, StepImplicit, StepImplicitTermsExplicitly"]}
{"id": "C82", "title": "Winds of a column depend on that column", "statement": "The update of U and V in StepExplicit depends on the data of the column only if uniform diffusion of U is off or the step is fully explicit; otherwise it reads scratch arrays that this call does not fill (refuted).", "quantifier": "all sequences of columns, data, scratch contents", "why_tests_cant": "stale scratch data may happen to be equal or zero in a test", "anchors": ["src/atm/VerticalDynamicsFEM.cpp: StepExplicit"]}
{"id": "C83", "title": "Columns shared by elements", "statement": "After StepImplicit all copies of a horizontal point within a patch hold the same column, the one solved at one of the copies, and no interior column is left unsolved.", "quantifier": "all patch sizes, horizontal orders from 2, solvers", "why_tests_cant": "a loop-bound error shows only for particular numbers of elements and orders", "anchors": ["src/atm/VerticalDynamicsFEM.cpp: StepImplicit"]}
{"id": "C84", "title": "Levels and interfaces of the vertical coordinate", "statement": "InitializeVerticalCoordinate places levels and interfaces at the quadrature points of equal finite elements (stretched by the chosen function), in rising order from 0 to 1, with normalized areas that add up to one, so that the checks of EvaluateGeometricTerms pass. False of the code for finite volumes or order one on the Interfaces staggering (division by zero), for order nine (the table repeats a node) and for stretched Interfaces staggering, where only the levels are stretched (refuted).", "quantifier": "all orders in the tables, numbers of elements up to 10^7, library stretch functions", "why_tests_cant": "the result is an array for every order, staggering and number of elements; the failures need particular combinations", "anchors": ["src/atm/GridGLL.cpp: InitializeVerticalCoordinate", "src/atm/Grid.cpp: InitializeVerticalCoordinate"]}
{"id": "C85", "title": "Metric terms of the cubed sphere", "statement": "At every node on levels and interfaces the stored contravariant rows invert the products of the coordinate vectors of the terrain-following map on the sphere, the Jacobian is positive with the square equal to their Gram determinant, DerivR holds their vertical parts, and the two-dimensional covariant and contravariant metrics match. The code does not check that the topography stays below the top, where the Jacobian loses its sign (refuted).", "quantifier": "all panels, points, topographies below the top, radii, heights", "why_tests_cant": "pointwise tests sample a few nodes; the claim relates formulas to a derivative at every point", "anchors": ["src/atm/GridPatchCSGLL.cpp: EvaluateGeometricTerms"]}
{"id": "C86", "title": "Copies of a point on several panels agree", "statement": "Jacobians (2D, levels, interfaces) and the Coriolis parameter have the same value at all copies of a point on the edges and corners of the cube; the Coriolis parameter is twice the rotation rate times the height above the equatorial plane.", "quantifier": "all points on faces, all pairs of panels", "why_tests_cant": "edges of all pairs of panels at all points", "anchors": ["src/atm/GridPatchCSGLL.cpp: EvaluateGeometricTerms", "src/atm/CubedSphereTrans.h: RLLFromABP"]}
{"id": "C87", "title": "Terrain-following coordinate of the Cartesian grid", "statement": "The metric terms are those of the coordinate map with the sixth-order decay function; coordinate surfaces run from the ground to the top and are strictly ordered if the topography is at most a third of the top. EvaluateTopography refuses exactly topography that reaches the top, but accepts mountains over which coordinate surfaces fold and the Jacobian is negative (refuted).", "quantifier": "all points, topographies, heights", "why_tests_cant": "folding needs a high mountain and a level at a certain height; ordering is an inequality over a continuum", "anchors": ["src/atm/GridPatchCartesianGLL.cpp: EvaluateTopography, EvaluateGeometricTerms, EvaluateTestCase"]}
{"id": "C88", "title": "Volume and surface pressure of a column", "statement": "On the cubed sphere the element areas of levels (and of interfaces) of a column add up to the volume of the column between ground and top; ComputeSurfacePressure is g rho (Ztop - Zs) for constant density, lies between the bounds given by the extreme densities, and is the weight of the discrete column mass if the normalized areas are the interface distances. On the Cartesian grid over terrain the volumes do not add up (refuted).", "quantifier": "all columns, level counts, topographies, densities", "why_tests_cant": "holds for all level counts and weights", "anchors": ["src/atm/GridPatchCSGLL.cpp: EvaluateGeometricTerms", "src/atm/GridPatchCartesianGLL.cpp: EvaluateGeometricTerms", "src/atm/GridPatch.cpp: ComputeSurfacePressure"]}
{"id": "C89", "title": "Derivatives of the topography", "statement": "EvaluateTopography differentiates exactly topography that is a polynomial of degree below the order along the lines of an element, and gives zero slope over flat ground, where the metric has no cross terms.", "quantifier": "all orders 2 to 10 (exactness: except the hard-coded order 4), all polynomials, elements", "why_tests_cant": "all polynomials and spacings", "anchors": ["src/atm/GridPatchCSGLL.cpp: EvaluateTopography", "src/atm/GridPatchCartesianGLL.cpp: EvaluateTopography"]}
{"id": "C90", "title": "Beta plane and friction strength of the Cartesian grid", "statement": "The Coriolis parameter has its reference value in the middle of the domain and the slope 2 Omega cos(lat0)/R; Rayleigh friction strengths are set on all levels and interfaces. False of the code: the middle is taken as half the width, which is wrong unless the domain starts at zero, and the strength of the top interface is never set (refuted).", "quantifier": "all domains, latitudes, level counts", "why_tests_cant": "the usual test domains start at zero", "anchors": ["src/atm/GridPatchCartesianGLL.cpp: EvaluateGeometricTerms, EvaluateTestCase"]}
{"id": "C91", "title": "HighSpeedDynamics: the implicit step is one backward Euler step of the linearised equations", "statement": "With the argument as combination, a vector solves the tridiagonal system if and only if, as mass flux at the end of the step, it makes the new density, rho theta and rho w a backward Euler step of vertical motion between a rigid ground and lid, with the pressure linearised by its derivative in rho theta and gravity acting on the mean new density of the adjacent layers.", "quantifier": "all columns, level counts, steps", "why_tests_cant": "the coefficients combine five arrays at three levels; a wrong one still gives a stable looking solve", "anchors": ["src/atm/HighSpeedDynamics.cpp: StepImplicitCombine"]}
{"id": "C92", "title": "HighSpeedDynamics: the implicit step keeps the mass and the rho theta of a column", "statement": "Whatever the solver returns as solution, layer depth times density and rho theta summed over the column are those of the combination of data instances. Requires that the entry of m_dA which no loop fills still holds the zero of the allocation; otherwise mass leaves through the lid in proportion to it.", "quantifier": "all columns, level counts, steps, combinations", "why_tests_cant": "a leak is proportional to uninitialised data and to the time step", "anchors": ["src/atm/HighSpeedDynamics.cpp: StepImplicitCombine"]}
{"id": "C93", "title": "HighSpeedDynamics: the tridiagonal solve", "statement": "For every column there is a step below which the system has exactly one solution and the elimination without pivoting (the vector variant) finds it; whenever the elimination runs without division by zero its result solves the system handed to dgtsv; a column at rest in discrete hydrostatic balance then stays unchanged.", "quantifier": "all columns, level counts, small steps", "why_tests_cant": "zero pivots and loss of balance depend on the profile", "anchors": ["src/atm/HighSpeedDynamics.cpp: StepImplicitCombine"]}
{"id": "C94", "title": "HighSpeedDynamics: the explicit step conserves in every element", "statement": "On every level of every element mass and rho theta weighted with quadrature weights and Jacobian are those of the combination; rho w on inner interfaces is, but for the vertical difference; air of one potential temperature keeps it.", "quantifier": "all orders 2..10, metrics, states, combinations", "why_tests_cant": "sums over products of quadrature tables", "anchors": ["src/atm/HighSpeedDynamics.cpp: StepExplicitCombine"]}
{"id": "C95", "title": "HighSpeedDynamics: the explicit step does not depend on the unit of time", "statement": "Counting time in other units (velocities and Coriolis parameter scaled by l, pressures by l^2, the step by 1/l) scales the result accordingly. True of rho u^a, rho u^b, rho theta and rho. False of the code for rho w: the vertical difference is taken of the mass flux instead of the momentum flux (refuted, with the exact deviation).", "quantifier": "all factors, metrics, states, combinations", "why_tests_cant": "a term of the wrong dimension is invisible in any single run", "anchors": ["src/atm/HighSpeedDynamics.cpp: StepExplicitCombine"]}
{"id": "C96", "title": "HighSpeedDynamics: balances and frame of the explicit step", "statement": "Rotation does no work and deflects to the right for a positive parameter; air at rest with pressure affine in height stays at rest over terrain; uniform wind carries momentum as it carries mass; nothing outside the interior or above the last level is written. False of the code: that the update is the combination on every interface; the top one is never combined (refuted).", "quantifier": "all metrics, states, combinations, patches", "why_tests_cant": "balanced states need matching discrete slopes; stale data on one interface", "anchors": ["src/atm/HighSpeedDynamics.cpp: StepExplicitCombine"]}
{"id": "C97", "title": "Held-Suarez friction is an implicit decay of the wind in the boundary layer", "statement": "Each component of the horizontal wind satisfies the backward Euler equation of Rayleigh friction with coefficient k_f max(0,(sigma-0.7)/0.3): direction is kept, no component grows, kinetic energy in any metric never increases, and nothing happens above sigma 0.7. False of the code: that sigma is the pressure ratio; the pressure is computed from rho times rho theta, which gives the right sigma only where the density equals the surface density (refuted, with a level inside the layer that feels no friction).", "quantifier": "all states, steps, metrics", "why_tests_cant": "a wrong sigma only shifts the depth of the layer", "anchors": ["src/atm/HeldSuarezPhysics.cpp: HeldSuarezPhysics::Perform"]}
{"id": "C98", "title": "Held-Suarez heating is one linearly implicit step towards the equilibrium temperature", "statement": "The update of rho theta is a Rosenbrock-Euler step of the relaxation of temperature at constant density with the exact derivative; rho theta stays positive; it grows exactly when the air is colder than equilibrium; warming never overshoots, cooling does not while dt k (gamma-1)/gamma <= 1. False for all steps: cooling overshoots for long steps (refuted for every warm state).", "quantifier": "all states, latitudes, steps", "why_tests_cant": "the derivative and overshoot are questions over a continuum of states", "anchors": ["src/atm/HeldSuarezPhysics.cpp: HeldSuarezPhysics::Perform"]}
{"id": "C99", "title": "Held-Suarez rates and equilibrium temperature keep their ranges and the step touches only its column", "statement": "Rates lie between k_a and k_s, the equilibrium temperature between 200 K and 315 K up to the reference pressure; both are symmetric in latitude; density and vertical velocity are unchanged; a column at rest in equilibrium is a fixed point. False above the reference pressure for the maximum (refuted).", "quantifier": "all pressures, latitudes, columns", "why_tests_cant": "ranges of transcendental functions", "anchors": ["src/atm/HeldSuarezPhysics.cpp: HeldSuarezPhysics::Perform"]}
{"id": "C100", "title": "The toy chemistry is the exact solution of its reaction", "statement": "The tendencies conserve total chlorine; the updated Cl is the solution at dt of the differential equation (limits of difference quotients), stays in [0, total], moves monotonically to equilibrium, and steps compose; the initial value is the equilibrium.", "quantifier": "all places, concentrations, steps", "why_tests_cant": "exactness of a flow is not a finite observation", "anchors": ["test/dcmip2016/interface/Terminator.f90"]}
{"id": "C101", "title": "The toy chemistry is applied to each cell of its own level", "statement": "Any sequence of visits keeps total chlorine and positivity in every cell and touches only visited cells; the degrees handed over are the radians of the grid. False of the code: that the visit [k][i][j] addresses the cell (i,j,k); the arrays are stored [i][j][k] (refuted: exact condition, out of bounds when a level number is at least the patch width).", "quantifier": "all patches, states, sequences", "why_tests_cant": "silent addressing of another cell", "anchors": ["test/dcmip2016/TerminatorPhysics.cpp: TerminatorPhysics::Perform"]}
{"id": "C102", "title": "Kessler microphysics conserves water and latent heat and keeps tracers non-negative", "statement": "For every column: vapour, cloud and rain stay non-negative; c_p pi theta + L q_v is conserved at each level; condensation and evaporation stop at saturation; water in the column plus rain that left never decreases, and is conserved exactly when no subcycle exceeds 1000 s or one layer of fall; the number of subcycles is the least that limits fall to 0.8 layers below the top level in the first subcycle; dry air is unchanged. False of the code: conservation for all columns (refuted: the top level is left out of the limit; subcycles longer than 1000 s overdraw cloud water).", "quantifier": "all columns, numbers of levels, steps, numbers of subcycles", "why_tests_cant": "conservation over all subcycle counts and clipping patterns", "anchors": ["test/dcmip2016/interface/kessler.f90"]}
{"id": "C103", "title": "KesslerPhysics keeps dry air, positivity and a neutral state; water balances the precipitation", "statement": "Dry density at every level is unchanged; tracers stay non-negative; microphysics that changes nothing leaves the state unchanged; the Exner function handed over is (p/p0)^kappa. False of the code: that the water lost equals the precipitation credited; specific ratios are handed over with the dry density, so at a level losing water the state loses rd (S-S')/((1-S)(1-S')) (refuted with a column losing over twice the rain credited).", "quantifier": "all columns, constants, steps", "why_tests_cant": "the mismatch is second order in humidity", "anchors": ["test/dcmip2016/KesslerPhysics.cpp: KesslerPhysics::Perform"]}
{"id": "C104", "title": "DCMIPPhysics keeps dry air and a neutral state", "statement": "Whatever the physics package returns, dry density is unchanged; a package returning its input leaves density, rho theta and tracers unchanged; the pressure handed over is that of the equation of state.", "quantifier": "all columns, constants, packages", "why_tests_cant": "inverse of a power law with derived exponents", "anchors": ["test/dcmip2016/DCMIPPhysics.cpp: DCMIPPhysics::Perform"]}
{"id": "C105", "title": "Physics packages of test/dcmip2016 act once per period", "statement": "With a period of one time step a package acts after every step. False for longer periods: Initialize is overridden without setting the next time, so a package acts after every step, with the whole period as its step, until its actions have caught up with the date counted from year 0 (refuted for every run; exact amount of surplus time).", "quantifier": "all runs, steps, periods, start dates", "why_tests_cant": "the drivers only use the period of one step", "anchors": ["test/dcmip2016/KesslerPhysics.cpp: Initialize", "test/dcmip2016/TerminatorPhysics.cpp: Initialize", "test/dcmip2016/DCMIPPhysics.cpp: Initialize", "src/atm/WorkflowProcess.cpp"]}
{"id": "C106", "title": "Interpolation to output points", "statement": "In a patch of equal elements the element chosen exists and holds the point; polynomials of degree below the number of nodes are recovered exactly; at a node the value of the node is returned; neighbouring patches agree on their common edge; without the reference state the deviation is interpolated. False for component 3: the vertical velocity is divided by the metric term at the first node of the element, so it is exact only where that term is constant in the element; tracer 3 is divided as well; its reference state is not (refuted).", "quantifier": "all patches, points, data, levels", "why_tests_cant": "output is judged by eye; needs every point and every field", "anchors": ["src/atm/GridPatchCSGLL.cpp: InterpolateData", "src/atm/GridPatchCartesianGLL.cpp: InterpolateData", "src/base/PolynomialInterp.cpp"]}
{"id": "C107", "title": "Output points find their patch and their value reaches the first rank", "statement": "For every default cubed-sphere layout and every longitude and latitude, the patch returned lies on the panel of the point and its coordinate arrays hold the point, so the range check passes; likewise on the Cartesian grid when no patch is empty. The reduction over ranks yields the value of that patch. False with empty patches: the corner of the domain is assigned to an empty patch and read at a negative index (refuted).", "quantifier": "all layouts, points, numbers of ranks", "why_tests_cant": "all numbers of patches and points on shared edges", "anchors": ["src/atm/GridCSGLL.cpp: ConvertReferenceToPatchCoord", "src/atm/GridCartesianGLL.cpp: ConvertReferenceToPatchCoord", "src/atm/Grid.cpp: ReduceInterpolate", "src/atm/GridPatchGLL.cpp: InitializeCoordinateData"]}
{"id": "C108", "title": "Lateral boundary conditions of the Cartesian grid", "statement": "Where a side of a patch acts, after ApplyBoundaryConditions the velocity half way between the outermost line and the next one vanishes (no slip), or its contravariant component across the side vanishes (no flux), for node and interface data, and nothing else changes; codes other than the three throw. False of the code: the test for a side counts the halo, so with a halo narrower than an element no patch of the default layout ever acts; with everything on interfaces the right and top sides exchange the two conditions; with everything on levels every call throws (refuted).", "quantifier": "all staggerings, layouts, metrics, conditions and states", "why_tests_cant": "arbitrary metrics and states, every patch of every layout; the periodic tests of the project never enter these branches", "anchors": ["src/atm/GridPatchCartesianGLL.cpp: ApplyBoundaryConditions", "src/atm/Grid.cpp: SetBoundaryCondition"]}
{"id": "C109", "title": "Initial states of the Cartesian tests are hydrostatic", "statement": "The reference states (constant potential temperature, constant buoyancy frequency, isothermal) satisfy dp/dz = -rho g exactly and have the reference pressure at the ground; the constant-frequency state has that frequency. False of the code: the bubble and current keep the density of the reference state and change the potential temperature, so the pressure inside the bubble is higher than the hydrostatic one (refuted); the cold pool jumps at its rim for radii below one (refuted); the branch without gravity starts above the reference pressure (refuted).", "quantifier": "all constants, heights and parameters with a positive Exner pressure", "why_tests_cant": "derivatives of the continuous state at every height", "anchors": ["test/nonhydro_xz/*Test.cpp: EvaluateReferenceState, EvaluatePointwiseState", "src/atm/PhysicalConstants.h"]}
{"id": "C110", "title": "Sponge layers are ramps from zero", "statement": "Every Rayleigh strength lies between zero and the prescribed strength is the maximum of half-cosine ramps that reach the full strength at the boundary, vanishes outside the layers and grows towards the boundaries; with a zero depth the upper layer never acts. False of the code for HydrostaticMountain: its left layer is the mirror image, with nothing at the boundary and a jump at the inner edge (refuted).", "quantifier": "all positions, depths and strengths", "why_tests_cant": "all positions in continuous domains", "anchors": ["test/nonhydro_xz/*Test.cpp: EvaluateRayleighStrength", "test/nonhydro_sphere/*Test.cpp: EvaluateRayleighStrength"]}
{"id": "C111", "title": "Initial states on the sphere are hydrostatic", "statement": "For every reachable set of physical constants the states of MountainRossby3D, MountainWaveSphere, ScharMountainSphere, InertiaGravityWave, StationaryMountainFlow, BaldaufGravityWave and shallow BaroclinicWaveUMJS satisfy dp/dz = -rho g and p = rho R T with the temperature they are built from, with positive density and potential temperature; the surface pressure is the prescribed one; no exception for a negative pressure is thrown.", "quantifier": "all constants, parameters, heights and latitudes", "why_tests_cant": "derivatives of the continuous state at every point", "anchors": ["test/nonhydro_sphere/*Test.cpp: EvaluatePointwiseState", "src/atm/PhysicalConstants.h"]}
{"id": "C112", "title": "Initial states on the sphere are in gradient wind balance", "statement": "The zonal wind of MountainRossby3D, MountainWaveSphere, InertiaGravityWave and shallow BaroclinicWaveUMJS satisfies u^2 tan(lat)/a + 2 Omega sin(lat) u + (1/(rho a)) dp/dlat = 0 away from the poles, and the discriminant exception of UMJS is never thrown. ScharMountainSphere satisfies it without rotation; with rotation it does not (refuted).", "quantifier": "all constants, parameters, heights and latitudes", "why_tests_cant": "derivatives of the continuous state at every point", "anchors": ["test/nonhydro_sphere/*Test.cpp: EvaluatePointwiseState"]}
{"id": "C113", "title": "Baroclinic wave of Jablonowski and Williamson is balanced", "statement": "Geopotential and temperature of the state satisfy d phi/d eta = -R T/eta at every level, the tropopause included; the reference pressure lies on the topography; where the temperature is positive a height has at most one level; the state built from a solution of phi = g z satisfies dp/dz = -rho g and p = rho R T; the zonal wind is in gradient balance with the geopotential on every pressure level.", "quantifier": "all constants, parameters, levels and latitudes", "why_tests_cant": "derivatives of the continuous state at every point", "anchors": ["test/nonhydro_sphere/BaroclinicWaveJWTest.cpp: EvaluateTopography, CalculateGeopotentialTemperature, EvaluatePointwiseState"]}
{"id": "C114", "title": "Channel and sheared-jet states are balanced, their sponge acts at the sides", "statement": "The channel states satisfy the hydrostatic relation in eta and geostrophic balance for the Coriolis parameter stored by the Cartesian grid; the three layers of the sheared jet are hydrostatic and join. False of the code: the ridge variant divides beta by the radius plus height (balance fails off the middle line) and the side layers of the channel compare x with the y limits.", "quantifier": "all constants, parameters, points", "why_tests_cant": "derivatives of the continuous state at every point", "anchors": ["test/nonhydro_xz/Baroclinic3DCartesianTest.cpp", "test/nonhydro_xz/Baroclinic3DCartesianRidgeTest.cpp", "test/nonhydro_xz/ShearJetMtnWave2DCartesianTest.cpp"]}
{"id": "C115", "title": "Newton iteration for the pressure level", "statement": "EtaFromRLL returns the first Newton iterate that moves by less than the tolerance, with geopotential and temperature of the iterate before, and throws after the given number of iterations; its residual is below the tolerance times the slope; for the sheared jet iterates increase towards the root and the search ends if enough iterations are allowed. The check that eta lies in [0,1] should reject other levels; it is never reached (shown as part of the outcome theorem).", "quantifier": "all functions, start values, tolerances and iteration counts", "why_tests_cant": "all executions of the loop", "anchors": ["EtaFromRLL in BaroclinicWaveJWTest, Baroclinic3DCartesian(Ridge)Test, ShearJetMtnWave2DCartesianTest"]}
{"id": "C116", "title": "Inclined solid-body flow is a steady solution", "statement": "The state of SWTest2 and MountainRossbyTest is a steady solution of the shallow-water equations for every inclination of the flow with the Coriolis parameter of the inclined axis. With the Coriolis parameter the grid stores it is steady exactly for no inclination, no rotation or no flow (false of the code for other angles). The mountain lies between zero and its height; it is not a function of the point of the sphere (false of the code at the date line).", "quantifier": "all constants, parameters and points off the poles", "why_tests_cant": "derivatives of the continuous state at every point", "anchors": ["test/shallowwater_sphere/SWTest2.cpp", "test/shallowwater_sphere/MountainRossbyTest.cpp", "src/atm/GridPatchCSGLL.cpp: EvaluateTopography and Coriolis"]}
{"id": "C117", "title": "Rossby-Haurwitz wave is nondivergent and stays so initially", "statement": "The wind of the wave has zero divergence and the divergence of its acceleration in the shallow-water equations is zero, for every wave number r (r+1, r+2 nonzero), amplitude, angular velocity and mean height.", "quantifier": "all constants, parameters and points off the poles", "why_tests_cant": "derivatives of the continuous state at every point", "anchors": ["test/shallowwater_sphere/RossbyHaurwitzWaveTest.cpp: EvaluatePointwiseState"]}
{"id": "C118", "title": "Barotropic jet in rotated coordinates", "statement": "CalculateRLLPrime gives the coordinates of the point on the sphere turned about the second axis; the velocity is the zonal jet of the turned sphere; the profile lies between zero and its strength with that strength in the middle of the belt; the height is a quadrature exact for cubic integrands, and with the exact integral the flow is steady. False of the code on the meridian at ninety degrees east, where the eastward wind has the wrong sign, and on the edges of the belt, where the code divides by zero.", "quantifier": "all angles, points and parameters", "why_tests_cant": "all points of the sphere", "anchors": ["test/shallowwater_sphere/BarotropicInstabilityTest.cpp: CalculateRLLPrime, EvaluateUPrime, EvaluatePointwiseState", "test/shallowwater_sphere/ShallowWaterEddyTest.cpp"]}
{"id": "C119", "title": "Slow tendencies of the split explicit dynamics", "statement": "The tendencies of CalculateTendencies neither create nor destroy mass or rho theta over an element, keep air of one potential temperature at it, vanish for air at rest whose pressure falls linearly with height in balance with its weight, are the weak divergence plus the flux through the interfaces, and scale with the unit of time. False of the code for rho w: the vertical flux of rho w does not scale as the others do.", "quantifier": "all states, constants, geometries, elements and levels", "why_tests_cant": "identities in all states and all geometries", "anchors": ["src/atm/SplitExplicitDynamics.cpp: CalculateTendencies"]}
{"id": "C120", "title": "One acoustic step is an off-centred implicit step", "statement": "In every column an acoustic step should solve the off-centred implicit equations of rho, rho theta and rho w with the linearised pressure, starting from the former rho, rho theta and rho w. True, as an equivalence, on flat ground when the forcing of rho theta does not differ between levels and the former rho w is what the unused array of the levels holds. False of the code otherwise: the forcing part of the pressure lacks the slope factor, the slopes are crossed by the former momentum at both ends, and the former rho w is never read.", "quantifier": "all columns, states, tendencies, step lengths and weights", "why_tests_cant": "equivalence for all states and all solutions of the system", "anchors": ["src/atm/SplitExplicitDynamics.cpp: FirstAcousticLoop, PerformAcousticLoop"]}
{"id": "C121", "title": "Budgets of an acoustic step", "statement": "Over one acoustic step the mass and rho theta over an element change by the step length times the total of their tendencies, and air of one potential temperature keeps it if its tendencies do.", "quantifier": "all states, tendencies, geometries, weights and solutions of the systems", "why_tests_cant": "sums over all states", "anchors": ["src/atm/SplitExplicitDynamics.cpp: PerformAcousticLoop"]}
{"id": "C122", "title": "Three acoustic steps make a step", "statement": "The first acoustic step is the general one from zero; each system has exactly one solution if the rows dominate, which they do for short steps; without tendencies the step changes nothing; the coefficients are the derivative of the pressure and the mean potential temperature. A tendency should act for the whole step: true of the horizontal momentum, false of the code for rho w, on which it acts for the last third only.", "quantifier": "all states, tendencies and step lengths", "why_tests_cant": "all executions of the three steps", "anchors": ["src/atm/SplitExplicitDynamics.cpp: FirstAcousticLoop, PerformAcousticLoop, StepExplicit"]}
{"id": "C123", "title": "The stabilised bi-conjugate gradient step reports its residual and reduces it", "statement": "For linear equations the value returned is the squared length of the residual at the state returned, whatever happened on the way; one passage goes along the residual and then to the least residual along the new one; a single equation is solved in one passage. The step should also return a solution when it is given one and say when it has not converged: false of the code, which divides by zero on a solution and whenever the residual is orthogonal to its image, reads an unassigned variable when no iteration is allowed, never throws when the work arrays fit, and with longer work arrays throws unless it has solved the equations.", "quantifier": "all linear equations, sizes, states, tolerances and iteration limits", "why_tests_cant": "all systems and all numbers of passages", "anchors": ["src/atm/JacobianFreeNewtonKrylov.cpp: PerformBICGSTAB_NewtonStep"]}
{"id": "C124", "title": "The column solve by elimination of the velocity gives the Newton correction", "statement": "The reduced band matrix, its right-hand side and the back substitution solve every equation of the column, and every solution of the column comes from the reduced equations; the matrix that BuildJacobianF fills with the operators of the grid fits in its band and has the couplings that the elimination relies upon. True at vertical orders four and six; false of the code at order two, where a place outside the band is read and the density equation of every level from the third on is missed by a stated product; columns of few levels are refused.", "quantifier": "all columns, states, right-hand sides, numbers of levels and supported orders; any band solver that solves", "why_tests_cant": "all matrices and numbers of levels", "anchors": ["src/atm/VerticalDynamicsSchur.cpp: StepImplicit, Initialize, BuildJacobianF, BuildJacobianF_Diffusion", "src/atm/VerticalDynamicsSchur.h: MatFIx, MatSIx", "src/base/LinearAlgebra.cpp: DGBSV"]}
{"id": "C125", "title": "After the implicit step nodes that elements share agree", "statement": "The copies at the end of the step make the value at the last node of an element that at the first node of the next. False of the code, which indexes the level first: the node gets the value of another node at another level, a horizontally uniform state does not stay so, along beta levels of other columns are moved, and on patches with no more levels than nodes across the copies leave the array. True only for a single element or a single value.", "quantifier": "all patches, fields, levels", "why_tests_cant": "all sizes of patches and fields", "anchors": ["src/atm/VerticalDynamicsSchur.cpp: StepImplicit"]}
{"id": "C126", "title": "The record of a timed group is the sum and number of its measurements", "statement": "After any program of timer calls the record of a named group holds the sum and the number of the durations measured since it was last forgotten, timers without a name leave none, the average lies between the least and the greatest duration, and a timer that is created and destroyed adds one measurement. A stopped timer should not be recorded again and a group without measurements should be forgettable: false of the code, where StopTime and the destructor both record, forgetting throws (so a run with exchanges blocked stops before its first step), and after 2^32 measurements the average divides by zero.", "quantifier": "all sequences of calls, clock readings, timers and group names", "why_tests_cant": "all call sequences", "anchors": ["src/base/FunctionTimer.cpp", "src/base/FunctionTimer.h", "src/atm/Model.cpp: Go"]}
{"id": "C127", "title": "Condensation conserves heat, ends below saturation, and what condenses falls", "statement": "For every column: a level that is not over-saturated is left alone; otherwise vapour condenses until humidity and temperature meet on the tangent of the saturation curve (which obeys Clausius-Clapeyron), cp T + L q is kept, the air is afterwards not over-saturated at that pressure, rain is not negative and the state stays consistent. The vapour lost should equal the rain: false of the code, which always rains less, by the weight 1 - q.", "quantifier": "all columns, levels, states, steps", "why_tests_cant": "all columns and states", "anchors": ["test/dcmip2016/interface/dcmip_physics_z_v1.f90: large-scale precipitation"]}
{"id": "C128", "title": "Surface fluxes relax the lowest level towards the sea, with coefficients that never jump", "statement": "The drag coefficient is monotone and has no jump; mixing coefficients are not negative, vanish at the ground and the top and follow the profiles of the two schemes; the lowest level is relaxed implicitly, wind towards rest without turning, temperature and humidity towards the sea's values without overshoot, the levels above are untouched and the gas law holds afterwards.", "quantifier": "all columns, states, winds, sea temperatures", "why_tests_cant": "all columns and states", "anchors": ["test/dcmip2016/interface/dcmip_physics_z_v1.f90: mixing coefficients, surface fluxes"]}
{"id": "C129", "title": "The boundary layer solves the implicit mixing equation and the physics keeps columns physical", "statement": "For any number of levels the elimination gives the only solution of the implicit mixing equation; mass times value is kept, variance does not grow, no new extremes appear, the pressure afterwards fits the mixed potential temperature; the routine stops exactly on unknown settings, leaves the winds of the supercell alone, and from any column of positive density and pressure returns one, with rain that is not negative and winds that do not grow. Mixing should keep the mass of vapour: false of the code, which keeps humidity times the moist density from before.", "quantifier": "all columns, numbers of levels, states, settings", "why_tests_cant": "all columns and states", "anchors": ["test/dcmip2016/interface/dcmip_physics_z_v1.f90: boundary layer, DCMIP2016_PHYSICS"]}
{"id": "C130", "title": "The matrix of the column solve is the derivative of the column equations", "statement": "Each entry of the matrix that BuildJacobianF assembles is the partial derivative of the equation BuildF evaluates for that row with respect to the unknown of that column, and a resting column solves the equations exactly if the discrete pressure gradient balances gravity. False of the code where the radial derivative on a level differs from that on the interface of the same number (the pressure gradient is divided by the one in BuildF and by the other in the matrix), and for upwinding over sloping ground (the matrix divides by the radial derivative where the derivative multiplies by metric term and radial derivative); the difference is exactly these two terms.", "quantifier": "all columns, operators, states, equations and unknowns", "why_tests_cant": "all columns, states and pairs of equation and unknown; the solver still converges with a matrix that is slightly wrong", "anchors": ["src/atm/VerticalDynamicsSchur.cpp: PrepareColumn, BuildF, BuildJacobianF, BuildJacobianF_Diffusion", "src/atm/LinearColumnOperatorFEM.cpp: LinearColumnDiscPenaltyFEM::Apply"]}
{"id": "C131", "title": "Tracers of the column solve move with the air", "statement": "A tracer whose density is a fixed multiple of the density of the air at the start of the column solve by elimination is the same multiple of it afterwards, and what the column holds of any tracer is kept where the tracer is not upwinded. The first is false of the code: the matrix of the tracer equations reads the Jacobian on interfaces with its indices in another order (level, alpha, beta in place of alpha, beta, level), so it takes the values of other columns, and it reads outside of the array unless the patch has more nodes along alpha than the column has levels and the column is near enough to the corner.", "quantifier": "all columns, operators, states, ratios, tracers, patches and positions in them", "why_tests_cant": "all columns and patches; over flat ground with a uniform Jacobian the values of the other columns are the same, and a read outside of one row of the array lands in memory of another", "anchors": ["src/atm/VerticalDynamicsSchur.cpp: UpdateColumnTracers (3571-4077)", "src/atm/VerticalDynamicsSchur.cpp:3761", "src/atm/GridPatch.cpp:136-140"]}
{"id": "C132", "title": "Options of the command line choose the parts of the model by name, in any case", "statement": "The set-up of a model takes each name that help text and error messages give for an option, in any mixture of capital and small letters, refuses every other name, gives the same model for names that differ in case only, on the sphere and on the plane, and uses the flags (no hyperviscosity, one level, restart file, outputs) as named. False of the code on the plane: the set-up there lowers the name of the horizontal dynamics a second time in place of the name of the vertical stretching, so that a stretching with a capital letter, which the sphere takes, is refused.", "quantifier": "all strings and values of the options, all sizes of the communicator", "why_tests_cant": "all strings in all mixtures of case for six options at once; the test programs pass the defaults, which are in small letters", "anchors": ["src/base/STLStringHelper.h: ToLower, ToUpper", "src/atm/TempestInitialize.h:185-703", "src/atm/TempestInitialize.h:669"]}
{"id": "C133", "title": "Words and hexadecimal numbers in C strings", "statement": "IgnoreWhitespace and FindWhitespace give the start and the end of the next word and never leave a string that is terminated; StringToHex gives the number that a string of hexadecimal digits in either case denotes, -1 if a character is no digit, for every number that an int holds. False of the code: the last character is taken as the most significant digit, so the result is the number with the digits in the opposite order (the number itself exactly if its digits are the same from both ends), and for the largest numbers of an int the sum with the character overflows although the number fits.", "quantifier": "all memory contents, strings, lengths and numbers", "why_tests_cant": "all strings and lengths; single digits and palindromes such as FF read correctly", "anchors": ["src/base/StringHelper.h:55-140"]}
{"id": "C134", "title": "Balances of the tropical cyclone", "statement": "The state of the tropical cyclone test is balanced: dp/dz = - rho g at every height, V^2/r + f V = (1/rho) dp/dr at every distance, wind along the circles around the centre and cyclonic, pressure continuous and equal to the surface pressure at the ground, pressure recovered from density and virtual potential temperature, and the height iteration is a Newton iteration for the pressure. False of the code above the tropopause: the density there is that of moist air while the pressure falls as in dry air, so the vertical balance is off by the factor 1 + constTv qtrop; and the pressure jumps at the tropopause by the part of the low that is left there.", "quantifier": "all distances, heights, places and storm parameters with the signs and sizes of the record sane", "why_tests_cant": "real-valued identities over all places and parameters; the two defects are small (1e-11 relative, 1 percent of the low) and hidden by the resolution", "anchors": ["test/dcmip2016/interface/tropical_cyclone_test.f90:48-266", "test/dcmip2016/TropicalCycloneTest.cpp:134-180"]}
{"id": "C135", "title": "Balances of the moist baroclinic wave", "statement": "The state of the dcmip2016 baroclinic wave, shallow or deep, is balanced: along the radius the pressure gradient equals gravity (in the deep atmosphere by the inverse square, with the centrifugal and Coriolis force of the jet), along the meridian the jet is in gradient wind balance; the temperature is positive and the jet exists and is eastward wherever the distance from the axis is at most the radius of the sphere, so everywhere off the poles in the shallow atmosphere; the pressure is p0 at the ground; the model recovers the pressure from density and virtual potential temperature; the perturbation is continuous and has its cap and centre where prescribed. False of the code for moist air, since the temperature is divided by 1 + 0.608 q and multiplied by 1 + 0.61 q, and for the edge of the perturbation, where it jumps by 1/e of its strength.", "quantifier": "all heights, latitudes, longitudes, Earth scalings and parameters with the signs of the record proper", "why_tests_cant": "derivatives of the continuous state at every point; the moist defect is a relative error of 1e-5", "anchors": ["test/dcmip2016/interface/baroclinic_wave_test.f90:49-323,378-405", "test/dcmip2016/BaroclinicWaveUMJSTest.cpp:142-212"]}
{"id": "C136", "title": "The state of the supercell", "statement": "The wind of the supercell has a continuous slope (exactly for a transition of a fifth of its height), the equatorial potential temperature increases from theta0 through theta_tr at the tropopause and the relative humidity falls from 1 to 1/4, the warm bubble is full at its centre, between 0 and its strength, smooth at its edge and zero a half-width away; the state at a point obeys the gas law with or without the bubble, which leaves the density alone and raises the pressure; the fit gives the tables at their nodes and is symmetric about the equator; the search for the height of a pressure never leaves the interval, never divides by zero, and returns only heights whose pressure is right up to the tolerance, for every pressure profile.", "quantifier": "all heights, places, parameters, tables with distinct nodes, pressure profiles and pressures", "why_tests_cant": "real-valued identities over all points, and a loop over an arbitrary profile", "anchors": ["test/dcmip2016/interface/supercell_test.f90:352-714", "test/dcmip2016/SupercellTest.cpp:186-235"]}
