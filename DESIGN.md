# Machine-checked model of tempestmodel

Source: `/repo` (paullric/tempestmodel, C++), read as text only.
Prover: Coq 8.16.1, files under `rocq/theories`, logical root `Verif`.

## Layout

Each area has up to four kinds of files:

* `<Area>Model.v`  – Gallina functions following the C++ function by function,
  with a comment citing file and lines.  Exceptions, undefined behaviour and
  out-of-fuel are explicit results, never a default value.
* `<Area>Spec.v`   – independent specification (no use of the model's helpers).
* `<Area>Proofs*.v` – lemmas.
* `<Area>Props.v`  – the property theorems (named `Cnn_...`) with non-vacuity
  `Example`s and `Print Assumptions`.

`_partial` marks a theorem weaker than the property; `_refuted` marks a theorem
proving that the code violates (part of) the property, with a witness.  When a
property is false of the code, the strongest true statement we found stands
beside the refutation, and the claim in `MANIFEST.json` is "partial".

## Modelling conventions

* C++ `int` / `size_t` are `Z` or `nat` without wrap-around unless the
  definition says otherwise; `/` and `%` are `Z.quot` / `Z.rem`.
* `double` is Coq's `R` (exact reals).  Rounding is *not* modelled, except in
  `C25_sphere_rounding_refuted` (IEEE double through the standard library's
  `SpecFloat`), where a theorem is stated for an arbitrary averaging operation
  (C25, C26), and where decimal literals are read as the doubles nearest to them
  (C53, C55).  A division by zero is an explicit result.
* Array accesses whose index is computed are checked; an access outside the
  array is an explicit result.
* MPI messages are lists delivered in an arbitrary order; see the assumptions
  under ProtoModel, DiagModel and RestartModel below.
* Printed text, file names, timing and logging are left out unless listed.

## What is modelled, by area

| area | source | properties |
|------|--------|------------|
| Time, TimeStr | `base/TimeObj.{h,cpp}`: fields, comparisons, VerifyTime, NormalizeTime, Add*, operator+/-, DeltaSeconds, ToString, ToShortString, ToLongString, ToFreeString, FromLongString, FromFormattedString | C01–C06 |
| Run | `atm/Model.cpp` Go (the loop), `atm/OutputManager.cpp`, `atm/WorkflowProcess.cpp` | C07–C10 |
| Arr | `base/DataArray1D–4D.h`, `DataStruct.h`, `DataContainer.{h,cpp}` | C11–C14 |
| Math | `base/MathHelper.{h,cpp}` | C15, C47 |
| Layout | `atm/PatchBox.h`, default patch layouts, DistributePatches, (de)activation, GetPatchFromCoordinateIndex | C16–C19, C48 |
| Panel | `atm/Direction.{h,cpp}`, adjacency tables and RelativeCoord of `atm/CubedSphereTrans.h`, GridCSGLL::GetOpposingDirection | C20, C21 |
| Exch, Proto | `atm/Connectivity.{h,cpp}`, GridPatch::Pack/UnpackExchangeBuffer, Grid::RegisterExchangeBuffer and InitializeExchangeBuffersFromPatch, Grid::Exchange | C22–C24 |
| Dss | GridCartesianGLL::ApplyDSS, GridCSGLL::ApplyDSS | C25, C26 |
| Vel | GridPatchCSGLL::TransformHaloVelocities, TransformTopographyDeriv, then GridCSGLL::ApplyDSS on the components | C25 |
| Step | GridPatch Copy/LinearCombine/ZeroData; TimestepScheme ARK232, ARK4, ARS222, ARS232, ARS343, ARS343b (StepComb), ARS443, ERK (all options), GARK2, SSP3332, SplitExp, Strang (all options) | C27–C30 |
| Interp | `base/PolynomialInterp.cpp` | C33 |
| Col | `atm/LinearColumnOperator.{h,cpp}` | C34 |
| Fem | `atm/LinearColumnOperatorFEM.cpp`: LinearColumnInterpFEM, LinearColumnDiffFEM (interface method, GLL nodes, reconstructions) | C50, C51 |
| Flux | `atm/FluxCorrectionFunction.cpp`; `atm/LinearColumnOperatorFEM.cpp`: InitializeFluxCorrectionMethod, InitializeVariationalNodeToREdge, LinearColumnDiffDiffFEM, LinearColumnDiscPenaltyFEM | C51, C58–C62 |
| Quad | `base/GaussQuadrature.cpp`, `base/GaussLobattoQuadrature.cpp`: the tables, the scaling | C49 |
| Leg | `base/LegendrePolynomial.cpp`: EvaluateValueAndDerivative, AllRoots, AllDerivativeRoots; the branches above ten points of `base/GaussQuadrature.cpp` and `base/GaussLobattoQuadrature.cpp` | C49, C63, C64 |
| Visc | HorizontalDynamicsFEM: FilterNegativeTracers, ApplyScalarHyperdiffusion, ApplyVectorHyperdiffusion, ApplyRayleighFriction, StepAfterSubCycle, SubStepAfterSubCycle; ComputeCurlAndDiv of both grids; VerticalDynamicsFEM::FilterNegativeTracers | C65–C70 |
| Nonh, NonhGlobal | HorizontalDynamicsFEM: StepNonhydrostaticPrimitive, the uniform diffusion of StepExplicit; with DSS on the whole domain | C71–C75 |
| Hs | `atm/HighSpeedDynamics.cpp`: StepExplicitCombine, StepImplicitCombine with both tridiagonal solves; GridPatch::ComputePressure | C91–C96 |
| Vert | `atm/VerticalDynamicsFEM.{h,cpp}`: PrepareColumn, BuildF, BuildJacobianF, BuildJacobianF_LOR_RhoTheta_Pi, BuildJacobianF_Diffusion, the index functions and half-widths, UpdateColumnTracers, StepImplicit, StepExplicit (vertical terms), StepImplicitTermsExplicitly; the choice of operators of GridGLL::Initialize | C76–C83 |
| Lev | GridGLL and Grid InitializeVerticalCoordinate: levels, interfaces, normalized areas, stretching, and the checks on them in EvaluateGeometricTerms | C84 |
| Geom | EvaluateTopography, EvaluateGeometricTerms, heights, Coriolis parameter and friction strengths of EvaluateTestCase in GridPatchCSGLL and GridPatchCartesianGLL; GridPatch::ComputeSurfacePressure | C85–C90 |
| Spac | `atm/GridSpacing.cpp` | C37 |
| Phys | `atm/PhysicalConstants.h`, `atm/VerticalStretch.h`, Givens rotations of `atm/JacobianFreeNewtonKrylov.cpp` | C38–C40 |
| Krylov | `atm/JacobianFreeNewtonKrylov.cpp`: constructor, InitializeJFNK, PerformJFNK_NewtonStep, PerformJFNK | C41, C56 |
| CsTrans | `atm/CubedSphereTrans.cpp` and the inline conversions of points, vectors and covectors in `CubedSphereTrans.h` | C35, C36 |
| Diag | placement of variables in Grid::InitializeVerticalCoordinate, `atm/EquationSet.cpp` constructor, GridPatch/Grid Checksum, ComputeTotalEnergy, ComputeTotalPotentialEnstrophy, ComputeTotalVerticalMomentum | C45, C46, C52 |
| Shallow, ShallowGlobal | GridGLL::Initialize (reference element), HorizontalDynamicsFEM::StepShallowWater, with DSS on the whole domain | C53–C55 |
| Restart | `atm/OutputManagerComposite.cpp` Output and Input | C31, C57 |
| Consol | `atm/ConsolidationStatus.{h,cpp}` | C32 |
| Cmd | command line macros of `base/CommandLine.h` and `atm/CommandLine.h` | C42 |
| Pref | `base/Preferences.cpp` | C43 |
| Ann | `base/Announce.cpp` | C44 |
| Held | `atm/HeldSuarezPhysics.cpp` | C97–C99 |
| Chem | `test/dcmip2016/interface/Terminator.f90`, `test/dcmip2016/TerminatorPhysics.cpp` | C100, C101 |
| Kess | `test/dcmip2016/interface/kessler.f90`, `KesslerPhysics.cpp`, DCMIPPhysics::Perform around the Fortran call | C102–C104 |
| Sched | Initialize of the three packages of test/dcmip2016, on top of Run | C105 |
| Samp | `atm/GridPatchCSGLL.cpp`, `atm/GridPatchCartesianGLL.cpp` InterpolateData (horizontal part), ConvertReferenceToPatchCoord of both grids, `atm/Grid.cpp` ReduceInterpolate | C106, C107 |
| Bc | `atm/GridPatchCartesianGLL.cpp` ApplyBoundaryConditions, `atm/Grid.cpp` SetBoundaryCondition | C108 |
| Init | `test/nonhydro_xz` ThermalBubbleCartesian(3D), RobertBubble, DensityCurrent, ScharMountainCartesian, NonHydroMountain, InertialGravityCartesianXZ, HydrostaticMountain: EvaluateReferenceState, EvaluatePointwiseState, EvaluateRayleighStrength; sponge layers of `test/nonhydro_sphere` | C109, C110 |
| Bal | `test/nonhydro_sphere` MountainRossby3D, MountainWaveSphere, ScharMountainSphere, InertiaGravityWave, StationaryMountainFlow, BaldaufGravityWave, BaroclinicWaveUMJS (shallow): EvaluatePointwiseState | C111, C112 |
| Eta | `test/nonhydro_sphere/BaroclinicWaveJWTest.cpp`, `test/nonhydro_xz` Baroclinic3DCartesian(Ridge), ShearJetMtnWave2DCartesian: EvaluateTopography, CalculateGeopotentialTemperature, EtaFromRLL, EvaluatePointwiseState, EvaluateRayleighStrength | C113–C115 |
| Swt | shallow-water tests SWTest2, MountainRossby, RossbyHaurwitzWave, BarotropicInstability, ShallowWaterEddy: EvaluateTopography, EvaluatePointwiseState, CalculateRLLPrime, EvaluateUPrime | C116–C118 |
| Spl | `src/atm/SplitExplicitDynamics.cpp`: CalculateTendencies, FirstAcousticLoop, PerformAcousticLoop, StepExplicit | C119–C122 |
| Bicg | `src/atm/JacobianFreeNewtonKrylov.cpp`: PerformBICGSTAB_NewtonStep | C123 |
| Schur | `src/atm/VerticalDynamicsSchur.cpp/.h`: StepImplicit (elimination, back substitution, shared nodes), band set-up of Initialize, PrepareColumn, BuildF, BuildJacobianF, BuildJacobianF_Diffusion, UpdateColumnTracers; the row extents of the operators in `LinearColumnOperatorFEM.cpp` | C124–C125, C130–C131 |
| Timer | `src/base/FunctionTimer.cpp/.h` | C126 |
| Dcm | `test/dcmip2016/interface/dcmip_physics_z_v1.f90` (DCMIP2016_PHYSICS) | C127–C129 |
| Opt | `src/base/STLStringHelper.h`, `src/atm/TempestInitialize.h`: ToLower, ToUpper, _TempestSetupMethodOfLines, _TempestSetupOutputManagers, _TempestSetupCubedSphereModel, _TempestSetupCartesianModel | C132 |
| Hex | `src/base/StringHelper.h`: IgnoreWhitespace, FindWhitespace, StringToHex | C133 |
| Tc | `test/dcmip2016/interface/tropical_cyclone_test.f90` for a given height, with fpiF and fpidFdz; the loop of the fixed-point iteration (a given pressure, zcoords = 0, which TropicalCycloneTest.cpp never asks for) is not modelled | C134 |
| Bw | `test/dcmip2016/interface/baroclinic_wave_test.f90` for a given height, deep and shallow, with the exponential perturbation; evaluate_z_temperature and the stream function, which BaroclinicWaveUMJSTest.cpp does not reach, are not modelled | C135 |
| Sc | `test/dcmip2016/interface/supercell_test.f90`: supercell_z, supercell_p, thermal_perturbation, zonal_velocity, equator_theta, equator_relative_humidity, lagrangian_polynomial_coeffs; not supercell_init | C136 |

## How each property is proved

| id | model | proof |
|----|-------|-------|
| C01 | Time fields, comparison operators | case analysis; lexicographic and chronological spec |
| C02 | NormalizeTime, while loops with fuel shown sufficient | invariant over operation sequences; refutations for the standard calendar |
| C03, C04 | same; operator+, operator-, GetSeconds | elapsed-microsecond measure, induction on the loops |
| C05 | leap rule in VerifyTime/NormalizeTime | refuted with witnesses; exact characterisation |
| C06 | printf/atoi digit functions | round trip by digit arithmetic |
| C07 | Go as a fuelled loop over Time | induction; telescoping sum |
| C08–C10 | OutputManager / WorkflowProcess state machines | invariants over event lists |
| C11–C14 | byte layout and ownership state machine | prefix sums; invariants over operation sequences |
| C15 | ISqrt loop, powers, factorial with 32-bit wrap | loop invariant |
| C16–C19, C48 | PatchBox, layouts, lookup with cache, DistributePatches | arithmetic tiling; invariants |
| C20, C21 | RelativeCoord and adjacency tables | case analysis against an embedding of the cube |
| C22–C24 | pack/unpack, registry, protocol | index maps; a transition system with an inductive invariant for C23 |
| C25, C26 | DSS in one and two dimensions | pointwise characterisation against a mean over coincident nodes |
| C27–C30 | data instances as functions; step programs | symbolic evaluation; tableau spec; order conditions |
| C31, C57 | Output/Input over bytes and messages | induction over containers and arrival orders |
| C32 | sets and maps as lists | invariants over operation sequences |
| C33 | loops of PolynomialInterp | Lagrange basis, derivative by limits |
| C34 | sparse operators | matrix algebra on lists |
| C35, C36 | conversions over R | trigonometry, derivative of the embedding, `nra`/`field` |
| C37–C40 | spacing, constants, stretching, rotations | real algebra |
| C41, C56 | GMRES with checked accesses | loop invariants; triangular factorisation |
| C42–C44 | list machines | induction |
| C45, C46, C52 | slot assignment, sums over patches | list induction, permutations, tiling |
| C47, C49 | cubic/quadratic formulae; tables | real algebra; exact integer moments of the tables |
| C50, C51, C58–C62 | operator construction element by element | polynomial algebra, uniqueness of interpolants, derivative by limits, summation by parts |
| C53–C55 | one explicit step on one patch and on all patches | summation by parts, regrouping of sums over coincident nodes |
| C63, C64, C49 above ten points | recurrence, refinement loop, weights | Bonnet recurrence and differential equation, orthogonality by parts, interlacing of roots, interpolatory quadrature; invariants of the loop |
| C65–C70 | filters, diffusion and friction on an element, a patch, all patches | summation by parts, induction over elements and levels, regrouping of sums |
| C71–C75 | one explicit nonhydrostatic step, one element and all patches | as C53–C55; derivative of the energy by limits |
| C76–C83 | residual, matrix and update of a column; loops over columns | telescoping of the column operators (from C51, C60, C62), derivative by limits term by term, locality of operators for the band, list invariants |
| C84 | arrays built by loops over elements and nodes | induction over elements; node tables by computation; monotone stretch functions |
| C85–C90 | formulas at a node; sums over a column | limits of difference quotients of the coordinate map, Gram determinants, telescoping; bounds on the decay polynomial |
| C91–C93 | the rows of a tridiagonal system; elimination as a recursion | equivalence with a written-out backward Euler step; diagonal dominance for small steps; telescoping |
| C94–C96 | tendencies at a node | as C71–C75; scaling of every intermediate array |
| C97–C99 | formulas at a level | real algebra, derivative by limits, Young's inequality |
| C100, C101 | tendencies; visits to cells | derivative of the closed solution by limits; induction over visits |
| C102–C104 | one level, one subcycle, all subcycles | min/max case analysis, telescoping of the fall of rain, induction over subcycles |
| C105 | runs of C07–C10 with another Initialize | the invariants of C10 |
| C106, C107 | one point, one level; layouts of C16, C17; ranks of C18 | truncation and bounds of the element index, exactness of C33 in each direction, induction over patches |
| C108 | one patch | induction over the points of a side: each point is written once and reads only itself and its neighbour |
| C109–C112 | a state as a function of height or latitude | derivatives of the states by the rules in `DlimProofs.v`; the pressure of a state is Poisson's law of its rho theta, for constants reached by any sequence of setters |
| C113–C115 | states in eta and in height | derivatives over R, implicit function by strict monotonicity, convexity for the Newton iterates |
| C116–C118 | shallow-water states on the sphere | derivatives over R, trigonometric identities, telescoping of the quadrature |
| C119–C122 | fields over levels and interfaces; solutions of the tridiagonal system | telescoping sums, equivalence of rows and balances, diagonal dominance |
| C123 | linear equations as matrix and constant; sums of squares | weakest preconditions over the outcome type, invariant of the passages |
| C124–C125 | matrix of a column with its couplings, band storage | writes to the array replayed by place, sums exchanged; for the copies: a target whose source is never written |
| C130 | partial derivative (derivable_pt_lim) of one equation along one unknown | chain rule through sums over operator rows; the two terms that differ kept explicit |
| C131 | equations of tracer and density as sums; content of a column | row of the tracer matrix against the row of the density equation; telescoping sums |
| C132 | alphabets as strings; names up to case; the names of the help text | induction over strings; the options after each ToLower followed through the set-up |
| C133 | digits by their place in "0..F", number with the first digit most significant | induction from the end of the string; uniqueness of the digits |
| C134 | hydrostatic and gradient wind balance as derivatives, scalar product of directions, slopes of the cosine of the distance | derivatives of composite expressions; bound x exp(-x^2) <= 1/2 for the common denominator |
| C135 | forces along the radius and the meridian as derivatives of the pressure | derivatives of composite expressions; Young inequality for the profile, bound of (1 - 2y) exp(-y) for the temperature |
| C136 | pieces of the profiles, gas law, fit as in Interp, the search as a loop over an arbitrary profile | gluing of derivatives, monotone powers; invariant of the bracketing interval |
| C126 | history of calls, durations measured | invariant over the calls relating state and history |
| C127–C129 | Clausius–Clapeyron, vapour budget, implicit mixing equation, relaxation | derivatives, tangent and convexity; pivots and convex combinations of the elimination; summation by parts |

## Trusted base

1. Coq's kernel (8.16.1), and `coqc`/`coqchk` as run on this box.
2. The axioms below, all from Coq's standard library and only those listed by
   `Print Assumptions` for each theorem:
   * `ClassicalDedekindReals.sig_forall_dec`, `ClassicalDedekindReals.sig_not_dec`
     (decidability used to build the reals),
   * `FunctionalExtensionality.functional_extensionality_dep`,
   * `Classical_Prop.classic` (excluded middle; through the library's
     trigonometry and derivative lemmas).
   No axiom is added by this development.  The table at the end of this file
   gives the set for every theorem in `MANIFEST.json`.
3. The hand translation of the C++ text into the model files, and the
   assumptions each area makes about code outside of it:
   * **Time**: `int` fields do not overflow.  `atoi`/`sprintf` follow the C
     standard on values in range.
   * **Run**: a model step is an event; files open and close without failure
     except where an exception is modelled.
   * **Arr**: `malloc` succeeds; `delete[]` of malloc'ed memory acts as free.
   * **Proto**: an MPI_Isend stays pending until its data are copied at any later
     time; messages of one pair of ranks arrive in order; MPI_Test may report
     completion at any time after the copy; MPI_Waitall returns when all sends
     are complete.  Message lengths are the subject of C24, not of ProtoModel.
   * **Dss**: the contents of the first halo ring are those of the neighbouring
     patches (what C22 delivers).
   * **Vel**: one level at a time; double is R; the covariant branch, as compiled.
   * **Step**: explicit tendencies and the implicit solution are arbitrary
     functions; PostProcessSubstage is an arbitrary function (a linear projection
     where stated); FilterNegativeTracers is the identity here (its own
     properties are C65).
   * **Diag**, **Restart**: MPI_Reduce combines the contributions in an arbitrary
     order; restart messages reach the root in an arbitrary order; the file opens
     and takes all bytes; container sizes are functions of parameters and patch
     data; sizes from 2^31 on are `Undef`.
   * **Shallow**: the initial and update instances are different arrays; on the
     whole domain the Jacobian has one value per point.
   * **Visc**: as Shallow; FIX_ELEMENT_MASS_NONHYDRO off; StepAfterSubCycle is a
     sequence of arbitrary functions on the data of a grid, each level and
     component by itself; a ratio with divisor 0 is `None`.
   * **Nonh**: as Visc; the formulation in rho theta and Exner pressure, as compiled;
     the column operators are arbitrary sparse matrices; a read outside the
     element-local metric is `None`.
   * **Vert**: W on interfaces, rho theta and rho on levels, the formulation in rho
     theta and Exner pressure with the direct solver, as compiled; hyperviscosity off;
     what DGBSV, DGBTRF and DGBTRS return is a parameter, a solution of the system
     where stated; the data of a column (metric, reference state) are arbitrary.
   * **Lev**: three-dimensional grids; the stretch function is one of the library's
     where order is claimed; integer division by zero, division of doubles by zero
     and writes outside an array are results of their own.
   * **Geom**: libm functions are the real functions; the topography is an arbitrary
     function; averaging of its derivatives across elements (GridGLL::EvaluateTestCase)
     is not part of the model.
   * **CsTrans**: libm functions are the real functions; tolerances such as 1e-13
     are exact decimals; a division by zero is `NotFinite`.
   * **Leg**: a division by zero is `Off`; std::sort is insertion sort on finite
     values.
   * **Krylov**: BLAS level-1 calls are the reference routines over R.
   * **Flux**: DGESV leaves some solution of the system it is given; quadrature
     rules are parameters with the stated exactness, which the tables up to ten
     points are shown to have.
   * **Col, Fem, Flux**: input and output columns do not overlap.
   * **Hs**: dgtsv returns some solution of the system it is given; buffers keep
     the zero of Allocate in entries no loop fills; for m_dA, which dgtsv overwrites,
     this is an explicit hypothesis.  The data instances differ where the code
     demands it; the final DSS is C25/C26.
   * **Held, Chem, Kess**: single precision constants are exact decimals; Fortran
     arguments of interoperable kinds; where a formula divides by zero (air at
     36 K in kessler.f90) Coq's quotient is taken, and hypotheses exclude zero
     densities, thicknesses and Exner values.  The Fortran package behind
     DCMIPPhysics is an arbitrary map there; it is modelled by itself under Dcm.
   * **Samp**: the decimal 1.0e-10 is exact; the conversion of a quotient to int does
     not overflow; the sums of MPI_Reduce are real sums; coordinate arrays are
     total functions, with 0 where GetEdge would have thrown.
   * **Bc**: arrays are functions of the indices; a side of a patch one node
     wide is an undefined access.
   * **Init, Bal**: the test parameters are arguments, not the literals of the
     constructors; pow is `Rpower` (positive base); the poles are excluded where a
     formula divides by cos(lat); perturbations of the wind of the baroclinic wave,
     tracers and the deep-atmosphere option are left out.
   * **Eta, Swt**: the test parameters are arguments. Equations of motion (hydrostatic,
     geostrophic and gradient balance on pressure levels, the shallow-water equations in
     longitude and latitude) are those of EtaSpec and SwtSpec. Perturbations of wind and
     height added to the balanced states are left out. pow is Rpower, used with a positive
     base. A division by zero in EvaluateUPrime is a result of its own (IEEE gives 0 or
     infinity); the count of quadrature intervals is an argument.
   * **Spl**: double is R; the solution of dgtsv is any vector that solves the system; direct
     stiffness summation is an argument, the identity in the theorems on three steps; the
     order of the writes to different arrays of one element is not kept apart. Initialize,
     hyperdiffusion, Rayleigh friction and StepAfterSubCycle (2321-3060) are not modelled.
   * **Bicg**: as Krylov; a division by zero is an explicit outcome, so is the read of
     dError before it is assigned. The theorems are about linear equations.
   * **Schur**: the band solver is any function whose answer, if it gives one, solves the
     band equations that the array stores; LAPACK itself is not modelled. The additions
     of BuildJacobianF to its array are collected by entry. PrepareColumn and BuildF are
     modelled for rho theta with the Exner pressure, finite volumes, velocity on
     interfaces, without uniform diffusion and hyperviscosity (SchurF); the
     tracers are modelled for one tracer in a semi-implicit step under the same settings
     (SchurTracer); the explicit steps and the filters of this class are not modelled. An access outside an array in the copies is the outcome `None`.
   * **Timer**: readings of the clock are inputs; unsigned long has 64 and unsigned int 32
     bits; a use of a timer that does not exist is an outcome of its own.
   * **Dcm**: REAL(8) is R and x**y is Rpower (positive bases; the hypotheses give them). The
     sea surface temperature of the baroclinic wave and the call of KESSLER are arbitrary
     values and maps; the reading of zi beyond its declared size sees the caller's value;
     `stop` is the outcome `None`.
   * **Tc, Bw, Sc**: REAL(8) is R; the real powers x**e are Rpower for positive x and zero
     otherwise. The parameters of the modules are records, with the literals of the files
     in the examples. A square root of a negative number (Bw) is the outcome `None`. The
     tables of supercell_init are arbitrary and its coefficients those of Interp.
   * **Opt**: char is signed, the locale is C; tolower of a character from 128 to 254 is the
     outcome `Undefined`. The model object is fresh; constructors of the classes, the
     patch parameters and the output settings other than the choice of managers are not
     part of it.
   * **Hex**: memory is a list of signed chars from the pointer on; int has 32 bits and a
     sum or shift beyond it is the outcome `Overflow`, a read beyond the memory `Outside`
     or `None`. ToLower and ToUpper on char * are not modelled (those on std::string are,
     under Opt). The repository has no callers of this class.

## Not modelled

Floating-point rounding (see above); LAPACK, NetCDF and MPI internals; the
tables and EvaluateCharacteristic of LegendrePolynomial (no callers); the
other formulations of HorizontalDynamicsFEM and VerticalDynamicsFEM, W on levels and
rho theta on interfaces in VerticalDynamicsFEM, its Newton-Krylov solver calls;
VerticalDynamicsSchur apart from the parts under Schur, the diffusion and friction of
SplitExplicitDynamics (2321-3060), the copies of the diffusion, filter and
friction code in HighSpeedDynamics (tendencies
enter StepModel as arbitrary functions); LinearColumnIntFEM (pseudo-inverse by SVD);
OutputManagerReference and OutputManagerChecksum; simple_physics_v5_1/v6.f90 (no callers); the initial states of the test directories other than those listed under Init, Bal, Eta, Swt, Tc, Bw and Sc (Held-Suarez, the deep UMJS state of nonhydro_sphere).

## Axioms used by each theorem

F = `sig_forall_dec`, N = `sig_not_dec`, E = `functional_extensionality_dep`,
C = `classic`; "closed" means closed under the global context.

* **C01** (TimeProps): closed: trichotomy, transitive, derived_comparisons, chronological, mismatch_throws
* **C02** (TimeProps): closed: noleap, noleap_constructor, total, standard_partial, standard_refuted, throw_corrupts_object
* **C03** (TimeProps): closed: noleap_instant, standard_instant, success_condition, add_seconds, add_days, add_delta, no_throw_refuted, standard_refuted
* **C04** (TimeProps): closed: difference, antisymmetric_additive, get_seconds, sub_add, month_delta_refuted, standard_throws
* **C05** (TimeProps): closed: agreement, verify_exact, gregorian_refuted
* **C06** (TimeProps): closed: long_round_trip, string_round_trip, short_round_trip, free_round_trip, long_injective, string_injective, year_only_refuted
* **C07** (RunProps): closed: partition, step_not_longer, step_length, no_step, terminates, succeeds, negative_step_never_ends, standard_calendar_throws
* **C08** (RunProps): closed: schedule, periodic, final_output_refuted
* **C09** (RunProps): closed: file_layout
* **C10** (RunProps): closed: workflow
* **C11** (ArrProps): closed: total_bytes, array_sizes_aligned, allocate_layout, attach_layout, allocate_succeeds, reallocate, container_memory, attach_null_refuted
* **C12** (ArrProps): closed: byte_size, range, injective, surjective, debug_check_complete, debug_check_refuted
* **C13** (ArrProps): closed: no_bad_free, freed_once, one_owner, no_leak, external_memory_kept
* **C14** (ArrProps): closed: allocate, assign, self, self_2d_zeroes, self_refuted
* **C15** (MathProps): closed: isqrt, intpow, ifact, ifact_refuted, max_min_sign_clamp; FE: ipow
* **C16** (LayoutProps): closed: accepted, tiles, equal_aligned, overrun_refuted
* **C17** (LayoutProps): closed: accepted, tiles, nonempty, nonempty_refuted
* **C18** (LayoutProps): closed: one_rank, active_distinct, balanced, uninitialised_refuted
* **C19** (LayoutProps): closed: cubed_sphere, cartesian, cartesian_far_refuted
* **C20** (PanelProps): closed: crossing, round_trip, injective, interior_and_corner
* **C21** (PanelProps): closed: tables_agree, direction_from_panel, flags_agree, opposing_round_trip, direction_opposite
* **C22** (ExchProps): closed: exchange, halo_only, across_panels, within_panel, corner_transposed_refuted
* **C23** (ExchProps, ProtoProps): closed: attach, headers_match, duplicate_header_refuted, unpack_any_order, wait_receive, lockstep, completes
* **C24** (ExchProps): closed: capacity, send_areas, recv_check_refuted
* **C25** (DssProps, VelProps): FE: cartesian_mean, cartesian_unchanged, cartesian_sum; closed: cartesian_continuous, cartesian_interior, cartesian_twice, sphere_interior, sphere_rounding_refuted; FEC: sphere_mean, sphere_continuous, sphere_unchanged, sphere_sum; FNEC: sphere_vectors, sphere_velocity, sphere_velocity_continuous, sphere_velocity_unchanged
* **C26** (DssProps): closed: cartesian, sphere, cartesian_layouts, sphere_layouts, order_one_refuted
* **C27** (StepProps): FE: combine, combine_throws, patch; closed: zero_coefficients_unread, copy, zero
* **C28** (StepProps): FE: erk, strang, splitexp, constant, linear, linear_ssprk53, order, ssprk53_refuted
* **C29** (StepCombProps, StepProps): FNE: ars232, ars222, ssp3332, gark2, state_with_tracers, order2, ark232_refuted; FE: ars343, ars343b, ars343b_base_refuted, ars443, order3, ars343_order3_decimal, ark4_refuted
* **C30** (StepProps): FE: erk, ars343, strang_single, strang, splitexp, ark4_tracers_never_advanced, strang_restart_refuted; FNE: ars232, state, stale_tracers_refuted
* **C31** (RestartProps): closed: output, input, round_trip, idle_rank, uninitialised_refuted
* **C32** (ConsolProps): closed: accepted, done, count, requests, tag, tag_refuted, location_refuted, duplicate_refuted, other_rank
* **C33** (InterpProps): FE: lagrange, delta, sum, diff, diffdiff, diffdiffdiff, diff_sum, close_nodes_refuted, interpolate, vandermonde
* **C34** (ColProps): FE: apply, compose, range_refuted, identity, neutral, variants, columns
* **C35** (CsTransProps): FNE: sphere, panels, from_lonlat; FNEC: lonlat, band_refuted, round_trip, round_trip_angles, round_trip_lonlat
* **C36** (CsTransProps): FNEC: tangent, to_panel, to_lonlat, inverse, panels, copanels, north_pole, south_pole_refuted, pole_division_refuted, guard_refuted; FE: not_adjacent
* **C37** (SpacProps): FE: uniform, repeated, mixed, lobatto; F: repeated_area, mixed_area, lobatto_area; FNEC: repeated_tabulated, lobatto_tabulated, areas, lobatto_areas, negative_refuted
* **C38** (PhysProps): FNEC: cached, setters, values, inverse, routes, gamma
* **C39** (PhysProps): FE: column, derivative, kink_refuted
* **C40** (PhysProps): FNE: givens, rotate, annihilate
* **C41** (KrylovProps): FNE: widened, one_equation_refuted, every_size_refuted, no_iterations_refuted; closed: constructor_refuted
* **C42** (CmdProps): closed: accepts, rejects, defaults, strict_lenient, empty_name_refuted, duplicate_name_refuted
* **C43** (PrefProps): closed: parse, meaning, meaning_unique, refused, inside, last_line_refuted, empty_refuted, long_line_refuted
* **C44** (AnnProps): closed: range, balanced, text, silent, deep_refuted, settings_refuted, percent_refuted
* **C45** (DiagProps): closed: slots, locations, mass_coord, advection_refuted
* **C46** (DiagProps): FNE: checksum_state, checksum_tracers, checksum_refused, momentum, sphere; FNEC: energy, shallow_water; F: other_ranks; closed: distribution
* **C47** (MathProps): FE: linear, quadratic, cubic, nodes
* **C48** (LayoutProps): closed: activation, duplicate_refuted
* **C49** (LegProps, QuadProps): FNEC: lobatto, gauss, gauss9, gauss_roots, lobatto_roots, above_ten; FE: gauss9_refuted; closed: counts
* **C50** (FemProps): FE: interfaces, levels, boundaries, single_refuted, first_output_refuted, reconstructed, average
* **C51** (FemProps, FluxProps): FE: interfaces, levels, levels_zero, gll, slope, interfaces_reconstructed, levels_reconstructed, layers, boundary_refuted, layers_refuted; FNEC: flux
* **C52** (DiagProps): FE: contravariant, agree_iff; FNEC: covariant_refuted
* **C53** (ShallowGlobalProps, ShallowProps): FE: mass, tracer, patch, consistent, outside, plane, stored_weights_refuted; FEC: sphere
* **C54** (ShallowProps): FE: energy, vorticity, rest
* **C55** (ShallowProps): FE: literals, reference, exact, exact4
* **C56** (KrylovProps): FNE: residual, perform, change_refuted, tolerance_refuted
* **C57** (RestartProps): closed: check, header, header_cut, cut_accepted, truncated_refuted
* **C58** (FluxProps): FNEC: function, solvable, unique; F: checks, overrun_refuted
* **C59** (FluxProps): FE: interpolants, continuous; FNEC: inside, edge, range, uneven_refuted
* **C60** (FluxProps): FE: tables, weak, conserves, constant
* **C61** (FluxProps): FE: interfaces, equal, dissipates, uneven_refuted; FNEC: levels, levels_balance, levels_refuted
* **C62** (FluxProps): FNEC: flux, conserves; FE: meet, smooth, single, reconstructed
* **C63** (LegProps): FNEC: one, value; FE: negative, ends
* **C64** (LegProps): FE: refused; FNEC: roots, slope_roots, step, slope_step, last, slope_last, count
* **C65** (ViscProps): FE: column, column_kept, column_refuted, element, element_kept, element_refuted
* **C66** (ViscProps): FE: weak, mass, constant, dissipation; FNEC: components, refused, reference_refuted, local
* **C67** (ViscProps): FE: values, gradient, weak, dissipation, kept, outside
* **C68** (ViscProps): FE: contraction, components
* **C69** (ViscProps): FE: refused, frame, off, last, substeps, friction_mean; F: substep_two_refuted
* **C70** (ViscGlobalProps): FE: plane, plane_four; FEC: sphere, sphere_four
* **C71** (NonhGlobalProps, NonhProps): FNEC: element, plane, sphere
* **C72** (NonhProps): FNEC: tracer, theta
* **C73** (NonhProps): FNEC: exner, energy, level, vertical
* **C74** (NonhProps): FNEC: bottom, frame, rest, isentropic, levels_refuted, interface_heat_refuted
* **C75** (NonhProps): FNEC: tracer, tracer_dissipation; FE: velocity, velocity_dissipation, velocity_steady, scalar
* **C76** (VertLevelProps, VertProps): FNEC: operators, budget, levels, levels_exact, levels_volumes_refuted, root, upwind_refuted, uniform_refuted
* **C77** (VertProps): FNEC: newton, ends, explicit
* **C78** (VertProps): FNEC: density, velocity, ends, exact, shear_refuted, uniform_refuted
* **C79** (VertProps): FNEC: volumes, elements, tracers; FE: short_columns_refuted
* **C80** (VertProps): FNEC: balance, keeps
* **C81** (VertProps): FNEC: follows, explicit, content, terms_refuted; closed: refused
* **C82** (VertProps): FE: local, reference; FNEC: stale_refuted
* **C83** (VertProps): closed: shared, solved
* **C84** (LevProps): FE: levels, interfaces, uniform, column, interfaces_pass, flat, rejects, range, division_refuted, ninth_refuted, stretch_refuted, base
* **C85** (GeomProps): FNEC: metric, vectors, flat; FE: two_dimensional; FNE: top_refuted
* **C86** (GeomProps): FNEC: edges, coriolis
* **C87** (GeomProps): FNE: metric, ends; FNEC: positive, ordered, fold_refuted; FE: refused
* **C88** (GeomProps): FNE: volume, pressure, weight; FE: pressure_bounds; FNEC: volume_refuted
* **C89** (GeomProps): FE: exact, flat, plane; FNE: level, shallow
* **C90** (GeomProps): FNE: middle, middle_refuted; closed: strength, strength_refuted
* **C91** (HsProps): FNEC: backward, slope
* **C92** (HsProps): FNEC: column, leak
* **C93** (HsProps): FNEC: elimination, small, rest
* **C94** (HsExplProps): FNEC: element, vertical, theta
* **C95** (HsExplProps): FNEC: units, vertical, vertical_refuted
* **C96** (HsExplProps): FNEC: work, rest, uniform, frame, top_refuted, crossing, shear
* **C97** (HeldProps): FNEC: friction, sigma_refuted, layer_refuted; FE: profile
* **C98** (HeldProps): FNEC: step, sign, warming, cooling, overshoot_refuted
* **C99** (HeldProps): FNEC: ranges, maximum_refuted, local, rest, rates, column
* **C100** (ChemProps): FNE: conserves, equilibrium, source; FNEC: exact, positive, monotone, compose
* **C101** (ChemProps): FNEC: run; closed: index_refuted; FNE: degrees
* **C102** (KessProps): FNEC: positive, energy, water, exact, courant, saturation, dry, top_refuted, long_refuted
* **C103** (KessProps): FNEC: exner, dry, positive, water_refuted, rain; FE: neutral, level, loss
* **C104** (KessProps): FNEC: dry, neutral
* **C105** (SchedProps): closed: every, step, period_refuted
* **C106** (SampProps): FE: element, polynomial, node, shared_edge, reference, vertical_partial, vertical_node, vertical_refuted, tracer, tracer_refuted, reference_refuted
* **C107** (SampPatchProps): FNEC: coordinates, cubed_sphere, cartesian_partial, empty_refuted; FE: gather
* **C108** (BcProps): FE: conditions, interfaces_partial, frame, unknown, halo_refuted, exchanged_refuted; closed: set, levels_refuted
* **C109** (InitProps): FNEC: neutral, strat, isothermal, bubble, pressure_refuted, current, rim_refuted, gravity, weightless_refuted
* **C110** (InitProps): FNE: strength, range, monotone, no_depth, sphere, hydrostatic_refuted
* **C111** (BalProps): FNEC: rossby, wave, schar, inert, still, baldauf, surface, umjs
* **C112** (BalProps): FNEC: rossby, wave, schar, rotation_refuted, inert, umjs, still
* **C113** (EtaProps): FNEC: levels, ground, unique, hydrostatic, wind
* **C114** (EtaProps): FNEC: levels, wind, ridge_refuted, mean, shear, join; FNE: sponge_refuted, sides_refuted
* **C115** (EtaProps): FE: outcome, residual; FNEC: shear, state
* **C116** (SwtProps): FNE: steady, grid, mountain, wrap_refuted; FNEC: inclination_refuted
* **C117** (SwtProps): FNEC: wave
* **C118** (SwtProps): FNEC: turn, profile; FNE: wind, meridian_refuted, integral, balance
* **C119** (SplProps): FNEC: mass, theta, rest, units, vertical, vertical_refuted, continuity, weight
* **C120** (SplForceProps, SplProps, SplStepProps): FE: column, refuted, stale, stale_refuted, force
* **C121** (SplStepProps): FE: mass, theta
* **C122** (SplStepProps): FE: first, impulse, impulse_refuted, short, unique, steady; FNEC: slope
* **C123** (BicgProps): FE: residual, search, single, restart, refuted, solved_refuted, unassigned, silent
* **C124** (SchurJacProps, SchurProps): FE: elimination, exact, complete, jacobian, code_exact, refuted, code; F: few
* **C125** (SchurJacProps): closed: single, constant, beta, refuted, uniform_refuted, outside
* **C126** (TimerProps): closed: record, unnamed, average, forward, scope, blocked, refuted, forget_refuted, wrap_refuted
* **C127** (DcmProps): FNE: saturation, level, column, budget_refuted; FNEC: saturated
* **C128** (DcmFluxProps): FE: drag; FNE: mixing, fluxes
* **C129** (DcmFluxProps): FE: mixing; FNEC: pressure, layer, stops, supercell, physics, vapour_refuted
* **C130** (SchurFProps): FNEC: derivative, matrix, other, gradient_refuted, upwind_refuted, rest
* **C131** (SchurTracerProps): FNEC: difference, ratio, ratio_refuted, content; closed: outside
* **C132** (OptProps): closed: lower, defined, back, nothing_else; F: case, plane, stretch_refuted, help, flags, restart, output
* **C133** (HexProps): closed: skip, stop, inside, backwards, order_refuted, round_trip, largest_refuted, too_large, refused
* **C134** (TcProps): FNEC: hydrostatic, above, above_refuted, wind, cyclonic, tangent, ground, tropopause_refuted, newton, pressure_back, distance, stratosphere; FNE: humidity
* **C135** (BwProps): FNEC: radial, meridional, jet, shallow, ground, pressure, pressure_refuted, humidity, outside, poles, circle; FE: taper; FNE: edge_refuted
* **C136** (ScProps): FNE: wind, wind_only, bubble; FNEC: theta, humidity, centre, state; FE: fit, symmetric, height, height_linear, height_range
