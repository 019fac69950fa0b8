# Formal model of MAPLEAF: design and trusted base

The source under /repo (MAPLEAF at the pinned commit) was read as text only; nothing was
built or run.  The model lives in `rocq/theories` (logical prefix `Verif`), Rocq/Coq 8.16.1.

## Trusted base

* Coq's kernel (no check is switched off; no `Admitted`, `admit`, axiom, functor, module type or plugin is used).
* The axioms listed at the end of this file for each theorem.  They are all from the standard library:
  `sig_forall_dec`, `sig_not_dec` and `functional_extensionality_dep` come with the real numbers,
  `Classical_Prop.classic` is used for real analysis.  Coquelicot adds none.
* That the model says what the code does: every definition in a `*Model.v` file cites the lines it
  transcribes and says where it simplifies.  "Which code is modelled" below lists what is covered.
* That the specifications (definitions at the top of the `*Props.v` files and in front of the theorems) say what the
  English properties in properties.jsonl say.

## Layout

For each topic `X` there are up to three files:

* `XModel.v` - shallow Gallina transcription of the code; every definition cites file and lines,
  and says where it simplifies.  No proofs.
* `XProofs.v` / `XFacts.v` - lemmas.
* `XProps.v` - specification definitions, property theorems `Cnn_...`,
  `Example`s showing that hypotheses are met, and `Print Assumptions`.

`Base.v` holds the shared vocabulary (Python exceptions as values, string helpers, ...).

Names: a theorem ending in `_partial` proves part of a claim (what is missing is said beside it and in MANIFEST.json);
one ending in `_refuted` proves that the claim as stated is false of the model, with a witness or for a whole class of inputs.
Such properties have status "partial".

## Modelling conventions

* Python floats are idealised: real numbers (`Coq.Reals.R`) where square roots, trigonometry or
  powers occur, rationals (`Q`) where only comparisons and field operations occur and executability
  is useful, `Z`/`nat` for counters.  Rounding, overflow and signed zero are NOT modelled; NaN is modelled only
  where the verdict depends on it (C40).
* Python exceptions are values of type `res A := Ok a | Err exn`.  Functions that read or change
  object attributes take and return the state explicitly.
* Python `str` is `list ascii` (8-bit characters); white space is the ASCII white space of `str.strip`.
* `dict` is an association list in insertion order (what Python 3.7+ guarantees); `set` is a list
  read only through membership.
* Loops become structural recursion or folds; unbounded `while` loops get fuel, and the theorems state that
  enough fuel always exists (termination) or quantify over every sufficient fuel.
* External functions (file system, random generator, force models, user callbacks, schedulers) are
  universally quantified parameters (section variables, discharged when the section closes).

## Wrong programs

`seeded/LOG.jsonl` records the edits made to scratch copies of the model, the claim each breaks, the theorems that
stopped proving and the theorems tightened because none did.
Four edits are logged as having survived every theorem and were not followed up: `ParallelModel.baseName` (name kept whole),
`WindRoseModel.npInterp` (error below the first point), `ControlModel.controlledSystem` (a component without fins accepted) and
`ControlModel.finAngles` (deflections read at time 0).  Under `BallisticModel.adaptiveMethods` (RK45 without first-same-as-last) only an example fails.

## What is proved, property by property

"Files" are under `rocq/theories`; the theorem names are in MANIFEST.json.  "Gap" says what the
proved statement leaves out or where the claim is false of the code.

* **C01 Hierarchical key queries are exact** (proved; KeyProps).
  Key functions and key queries over association lists of strings; exact characterisations by string induction.
* **C02 Writing a definition to file and parsing it back is lossless** (partial; ParseProps).
  Writer and parser at text level; refinement between the line stream and the tree of open dictionaries.  Gap: Full claim refuted (C02_refuted): a dictionary of the same name at the same depth in another parent is merged into the previous parent. Proved for all writable definitions whose dictionary names are unambiguous.
* **C03 Parsing never silently overwrites or drops a key-value pair** (partial; ParseProps).
  Recursive parser over lines with comment removal; simulation with an abstract tree grammar, for every layout; invariant: keys are distinct.  Gap: Exactness and duplicate rejection proved for every tree and every layout; converse proved for every command-free text up to lines after a stray closing bracket, which are silently dropped (C03_refuted).
* **C04 Loading files that include each other always terminates** (proved; ParseProps).
  Include loader over an abstract file system with the parse stack; terminates by the number of files not on the stack; cycles raise.
* **C05 Value look-up precedence and usage reporting** (partial; DefProps).
  Typed reads with usage trackers as a state machine; invariant over every history of reads, writes and removals.  Gap: Look-up order, state preservation and exact usage tracking proved for all histories of reads/writes/removals. Refuted corner: a key that is itself the name of a dictionary declaring a class hides the class default of its enclosing dictionary; C05_lookup_partial excludes exactly that case, C05_lookup_any_key covers every key with the code's actual rule.
* **C06 Relative keys win over absolute keys in sub-dictionary readers** (proved; DefProps).
  SubDictReader look-ups; case analysis on the look-up result.
* **C07 Derived dictionaries contain exactly the parent's entries under the new name** (partial; ParseProps).
  The !create core (rename, merge) on lines of the parent dictionary.  Gap: Full claim refuted twice (text replacement of the parent path anywhere in the key; block lines silently overwrite existing keys). Proved exactly for keys in which the parent path does not re-occur.
* **C08 Monte Carlo sampling touches only the probabilistic keys and never drifts** (partial; DefProps).
  Resampling over an oracle stream of normal draws; invariant on the stored means over n resamplings.  Gap: n-fold resampling characterised exactly (values, draw numbers, frame) when means/deviations are not themselves probabilistic; refuted for a K_mean that has its own K_mean_stdDev (drifts) and for disabled sampling with included files (still sampled). random.gauss is an oracle stream of standard normals; float/str conversions are parameters.
* **C09 Caching of the last result is transparent** (partial; CacheProps).
  Cache wrapper as a state machine; induction on the list of calls.  Gap: Proved for every call history when the key comparison is sound and results are not mutated; the proviso is shown necessary. Refuted when the state comparison identifies different states (composite states of different length compare equal when one is a prefix) and when an argument is mutated in place.
* **C10 Aerodynamic angle queries do not influence each other** (partial; CacheProps).
  Heap cell holding the cached vector and queries that change it; per-query characterisation.  Gap: getTotalAOA/getLocalFrameAirVel proved independent of history; refuted: getAOA/getAOSS change the cached air velocity, so later queries at the same state differ.
* **C11 Quaternion rotation is a rigid rotation** (proved; GeomProps).
  Quaternions over R: rotations keep lengths and angles, compose, invert; ring and trigonometry.  Note: Over the reals; zero quaternion excluded (Python raises). Floating-point rounding not modelled.
* **C12 Vector algebra laws** (proved; GeomProps).
  Vector operations over R; ring, sqrt lemmas.  Note: Over the reals. Text constructor not covered here.
* **C13 Moving a force-moment system to another point preserves its mechanical effect** (proved; MechProps).
  Transfers and sums of force-moment systems; induction on chains and lists, ring.  Note: Over the reals, for any chain of transfers and any number of systems.
* **C14 Combining inertias conserves mass and first and second moments** (partial; MechProps).
  Combination of inertias about a point (parallel axis); induction on lists.  Gap: Refuted: + and combineInertias detect the receiver in the list by value, so two equal bodies are counted once. Proved for all lists of bodies as counted (receiver listed or distinct), order/grouping independence, combination about a point, rejection of other reference points.
* **C15 Linear table interpolation** (proved; InterpProps).
  Table look-up with its binary search; invariant of the bisection, field.  Note: Over the reals; the binary search itself is modelled. No division by zero even for tables with repeated nodes.
* **C16 Cubic interpolation matches end values and slopes** (proved; InterpProps).
  Cubic interpolation through the 4x4 matrix inverse; field, derivative at the ends.  Note: Over the reals; the matrix inverse is the exact one (proved two-sided inverse). The finite-difference wrapper is exact for straight lines and takes the difference quotients as slopes.
* **C17 Fixed-step integrators have their advertised order** (proved; IntegProps).
  Tableaus and RK steps; order conditions by rational arithmetic, exactness on polynomials and linear systems by ring.  Note: Over the reals, with the tableaus transcribed exactly as rationals and the 1e-16 zero replacement kept. Order conditions (up to order 5) are proved for every built-in method except RK78, for which only consistency (row sums) and the general quadrature/linear theorems' premises up to consistency are checked.
* **C18 Adaptive stepping terminates with an acceptable or minimal step** (partial; AdaptProps).
  Adaptive step loop with fuel; termination and acceptance invariant for every right-hand side.  Gap: Proved for every right-hand side and every value type for the four built-in adaptive methods, given minStep > 0 and 20*target < 1e7. Refuted corners: a target error >= 500000 raises (no attempt is made), and a rejected attempt whose error is exactly 10000000 is not reported to the discard callback.
* **C19 Suggested next step respects the limiters** (partial; AdaptProps).
  Step size controllers; bounds by arithmetic over every history of errors.  Gap: Refuted: the safety factor is multiplied after limiting, so at the minimum step the proposal is 0.9 * minimum; a zero error estimate raises ZeroDivisionError in the elementary controller. Proved: bounds scaled by the safety factor, the exact claim for the PID controller (safety factor 1), and no limiting of admissible wishes.
* **C20 Re-using the last derivative is invisible** (partial; AdaptProps).
  First-same-as-last reuse; equality of the reused and the recomputed derivative over whole simulations.  Gap: Refuted when the state is modified between steps (the stored derivative is never reset). Proved for every system size: the stored derivative is the derivative at the end of the step, at a value that differs from the result by 1e-16*dt*k (zero replacement); re-use is invisible in whole simulations when the derivative depends on time only, for all edits and policies.
* **C21 Composite state arithmetic is element-wise** (partial; StateProps).
  Composite states (StateList) with names; invariants over sequences of operations, induction on lists.  Gap: Proved for every number of variables and every sequence of additions, assignments and arithmetic on one state (names must be new, not names of list methods; operands of equal size); construction with names is characterised exactly; the norm is a norm. Refuted: derived states share one name map, so adding variables to two of them mixes up names; operands of different size are cut silently; addStateVariable checks no names; assignment to unknown names is dropped.
* **C22 Interpolated rigid-body states reproduce their end points** (partial; OrientProps).
  State interpolation; vectors by field, orientation refuted.  Gap: Refuted for the orientation: weights are exchanged (C22_orientation_swapped). Vectors proved for every weight; constant states proved.
* **C23 Each subscribed event fires at most once and in time** (proved; EventProps).
  Event detector as a state machine with subscriptions; invariants over every history of checks.  Note: Proved for any history of checks and any number of subscriptions; burnout events while the lowest stage's shut-off time is unchanged.
* **C24 Stage separation sequence** (partial; EventProps).
  Stage separation as a state machine; induction on the number of separations.  Gap: Drop order proved for any number of stages. The ignition claim holds with two stages and is refuted for every rocket with three or more (the top stage is ignited); burnout triggers can drop two stages in one check; the simulated dropped stage is chosen by stage number.
* **C25 Propellant mass balance of tabulated motors** (partial; MotorProps).
  Propellant tables; induction over tables, monotonicity of interpolation.  Gap: Proved for each propellant of every well-formed table and any ignition time; the motor's total is their sum only if the two inertias differ (equal inertias are counted once): refuted in general, mass can even grow.
* **C26 A motor produces thrust only while burning** (partial; MotorProps).
  Thrust table and impulse; trapezoidal integral by induction.  Gap: Thrust while burning, after burnout and total impulse proved for every table. Refuted before ignition: thrust is the first table value (partial: zero if the table starts at zero).
* **C27 Launch rail constrains motion to the rail** (partial; RailProps).
  Launch rail; invariant over histories of steps.  Gap: Never below, release and held clauses proved for every history; the direction-of-force clause is refuted for tilted rails (frames are mixed) and for a turning earth (C27_turned_refuted: the force keeps the initial direction of the rail), the bottom-velocity clause for a rotating earth.
* **C28 Gravity** (proved; GravityProps).
  Gravity models; field and trigonometry.
* **C29 Standard atmosphere is continuous, positive and independent of how many models exist** (partial; AtmosProps).
  Standard atmosphere with its class-level tables as shared state; invariant over object creations, real analysis (Coquelicot) for continuity and hydrostatic balance; tabulated atmosphere through C15.  Gap: Proved above -2000 m geopotential altitude: every query answered independently of history, positive, continuous across layers, in hydrostatic balance. Refuted below -2000 m, where the layer index wraps to the topmost layer (C29_below_refuted).
* **C30 Gust profile is bounded, continuous and local** (proved; TurbProps).
  Discrete gust; case analysis, Lipschitz bound.  Note: Bounded, zero outside, exact on the plateau, Lipschitz everywhere, symmetric; a zero blend distance gives the step asked for (Example C30_step).
* **C31 Pink-noise turbulence is a function of time for a given seed** (partial; TurbProps).
  Coloured noise generator over an oracle stream; complete description of answers by induction on the query history.  Gap: Complete description of every answer for every query history (C31_answers). It is a function of time when queries never go back to an earlier sampling interval; refuted for queries going back in time (extrapolated from the latest samples) and for the third component, which is a copy of the second.
* **C32 PID integral never exceeds its limit** (partial; GncProps).
  PID controller; closed form of outputs over histories.  Gap: Outputs, integral clamping, zero step and array errors proved for all histories. Refuted: a gain-schedule update silently drops the integral limit.
* **C33 Actuators stay inside their deflection limits and do not overshoot** (partial; GncProps).
  Actuator response; exponential approach, invariant over histories.  Gap: Limits, approach, repeat queries proved. Refuted: with limits that exclude the rest position the deflection starts outside them.
* **C34 Control loop runs at its update rate** (partial; GncProps).
  Control loop timing; arithmetic over sequences of steps.  Gap: Step adjustment and schedule proved for every rate, step and number of steps, for steps above 1e-10 s; refuted below (absolute tolerance).
* **C35 Logs stay rectangular and chronological** (partial; LogProps).
  Log as rows and columns; invariants over operation lists.  Gap: Proved for all histories except logging values directly into Time(s) and giving a column called default its own fill value; both are refuted with witnesses.
* **C36 Discarding a rejected time step removes exactly that step's log rows** (partial; LogProps).
  Discarding rows of rejected steps; simulation with an ideal log.  Gap: Proved for methods without derivative reuse and a single simulated body; deleting one row too many with a reused derivative and deleting rows of other stages are refuted.
* **C37 Simulations ending at a time end exactly there** (partial; RunProps).
  Run loop with end detector; fuel, arithmetic on end times.  Gap: Proved for fixed-step methods; adaptive methods end within a proved slack of the end time; a stage detached during the shortened last step is simulated with that step size (refuted).
* **C38 Concurrent runs never share a results folder** (proved; ParallelProps).
  Creating output folders: interleavings of simulations and other programs; invariant over all schedules.  Note: File system accesses (existence check, mkdir) are atomic steps in an arbitrary interleaving with other simulations and other programs that create paths; deletion is not modelled. C38_last_attempt records that a simulation that succeeds at its 51st attempt still raises and leaves an empty folder.
* **C39 Parallel Monte Carlo runs produce the same results as serial runs** (proved; ParallelProps).
  Monte Carlo runs in parallel: interleavings of workers; permutation invariants over all schedules.  Note: ray.wait returns one arbitrary running job; the worker computation is a function of the run number (its seed comes from one generator, in order). A failing worker makes the whole run raise (C39_completes).
* **C40 Regression verdicts** (partial; BatchProps).
  Batch verdicts over parsed results, NaN included; case analysis, induction over expected values.  Gap: Refuted as stated: a NaN result passes where 0 is expected, a sweep over a missing column raises TypeError instead of recording a failure, and a single expected value for a refined sweep is not compared with the last point. The partial theorems give the exact verdict: comparison of the parsed value against the expected one within the tolerance, and the exit status as a function of the cases' outcomes.
* **C41 Parameter-sweep refinement** (proved; BatchProps).
  Sweep refinement; induction on the number of refinements.  Note: Full statement.
* **C42 Flight summary values** (partial; FlightProps).
  Flight summaries; fold invariants.  Gap: Speeds: full. Apogee: starts from -10000000, so a flight entirely below that Z is misreported (refuted). Landing: refuted - the code extrapolates when Z > 2 dz: a simulation stopped in the air gets an extrapolated point although the last position is documented, one stopped while climbing returns a point off the ground, a level last step above ground raises ZeroDivisionError. Proved for every flight whose last step crosses the ground in descent, and the exact result in all other cases.
* **C43 Grid-convergence estimates** (partial; GridProps).
  Richardson extrapolation and observed order; field, logarithms.  Gap: Exact for every geometric triple with order within the limits and values not yet equal; refuted outside (order 3 is reported as 2, and the extrapolated value is wrong; equal values raise ZeroDivisionError).
* **C44 Hardware-in-the-loop packets are self-consistent** (proved; HilProps).
  Packet encoding and decoding; induction over bytes.  Note: proved for every list of received bytes and every packet sent; C44_overflow states exactly when a value does not fit
* **C45 Recovery deployment sequence** (proved; RecoveryProps).
  Recovery system as a state machine driven by the event detector of C23.  Note: Full statement, with deployment times characterised by the specification of C23.
* **C46 Composite inertia and force are sums over all components** (partial; MechProps).
  Composite objects: inertia and forces over histories of component changes.  Gap: Proved for every history of component changes ending in a recomputation, with and without overrides; force sums proved. Refuted behind the last-result cache: the same time and state after dropping a component returns the old inertia.
* **C47 Component ordering** (partial; MechProps).
  Component sorting; stable permutation by induction.  Gap: Stable decreasing permutation proved for every list; refuted for the interfaces, which are never created (function returns None).
* **C48 Optimization never rewards crashing and evaluates variables independently** (partial; OptProps).
  Optimization trials; history invariants, definition updates.  Gap: crash cost is at least the worst cost after more than five evaluations or when some cost is not negative (C48_crash_partial), and better than the worst otherwise (C48_crash_refuted). Written values hold for variables with distinct paths; C48_values_refuted shows two variables with one path
* **C49 Geodetic and Cartesian coordinates are consistent** (proved; GeodesyProps).
  Geodesy; field/trigonometry.
* **C50 Fin angle of attack is limited by stall** (partial; FinProps).
  Stall angle of fins; arithmetic.  Gap: Refuted: the stall angle is computed in degrees and compared with angles in radians, so fins never stall (C50_never, C50_refuted). C50_limited shows the limiting itself is right for a limit in the right unit.
* **C51 Usage reports can always be printed** (partial; DefProps).
  Unused key report; history invariant.  Gap: Proved for histories without removals; refuted: removing a never-read key makes the unused-key report raise KeyError.
* **C52 Searching keys by text** (partial; KeyProps).
  Text search in keys; filter lemmas.  Gap: Code requires all texts, documentation says any: refuted; the partial theorem states exactly what is returned.
* **C53 Spherical interpolation reaches its end points** (partial; OrientProps).
  Slerp; trigonometry.  Gap: Refuted: slerp returns the increment, and with the wrong axis when the quaternions lie in opposite half spaces. Proved as an increment in the same half space.
* **C54 Orientations stay proper rotations under integration** (proved; OrientProps).
  Orientation updates during integration keep unit quaternions; induction on steps.  Note: Over the reals.
* **C55 Axis, angle and rotation vector describe the quaternion** (partial; OrientProps).
  Axis-angle conversion; trigonometry.  Gap: Refuted for the identity stored as (-1,0,0,0), where the axis raises ZeroDivisionError; proved for all other non-zero quaternions.
* **C56 Euler angles describe the orientation** (partial; OrientProps).
  Euler angles; trigonometry with atan2.  Gap: Refuted at gimbal lock; proved elsewhere for unit quaternions.
* **C57 Angle between vectors** (partial; GeomProps).
  Angle between vectors; acos bounds.  Gap: Refuted: directions with cosine within 1e-8 of 1 are reported as angle 0. Proved outside that band, with error bound inside.
* **C58 Composite states are integrated variable by variable** (partial; StateProps).
  Integrating composite states; induction on lists.  Gap: Proved for the fixed-step methods and any number of variables. Refuted for the adaptive methods: StateList has no in-place addition of its own, '+=' appends, and the step taken is dt*b1*k1 only (theorem holds for every right-hand side and tableau).
* **C59 A stage's engine shut-off time is the end of its burn** (partial; MotorProps).
  Motor ignition and shut-off; arithmetic.  Gap: Proved for motors lit by staging; refuted for the first stage unless the burn-time factor is one (shut-off time taken before scaling).
* **C60 Rigid-body equations of motion** (proved; MotionProps).
  Rigid body derivatives; ring, momentum balance.
* **C61 Launch-frame states are converted faithfully** (partial; EllipsoidProps, FrameProps).
  Launch and local frames on each earth model; rotation algebra; on the ellipsoid the error bound of C64 and the distance from the centre.  Gap: Velocity, orientation and spin relative to the moving ground and the altitude are proved for every state and site, on the ellipsoid the altitude to 20 cm; refuted: horizontal launch-frame position is ignored, the body-frame spin is turned by the local frame on the way back, and the local-frame velocity on the rotating earth contains the ground speed.
* **C62 Calm air moves with the ground** (proved; FrameProps).
  Velocity of calm air in the inertial frame; vector algebra.
* **C63 Vertical speed used for event detection is the rate of climb** (proved; EllipsoidProps, FrameProps).
  Vertical speed as derivative of altitude along a trajectory (Coquelicot); for the ellipsoid the vertical at the stopped iteration compared with the exact one (the residual bounds the latitude parameter, the parameter the angle).  Note: Flat and spherical earth exactly; WGS84 with the latitude at which the code's iteration stops, from 100 km below the ellipsoid upwards, to within 1.1e-10 of the speed.
* **C64 Ellipsoidal coordinates** (proved; EllipsoidProps, GeodesyProps).
  Latitude iteration; contraction and fixed point; the exact parameter of a position is a root, so the residual bounds the error of the height.
* **C65 Stabilizer target and angular error** (partial; GncProps).
  Orientation controller errors; quaternion algebra.  Gap: Proved except straight down (zero quaternion), within 1e-8 of vertical (exactly vertical instead), minus-identity error (ZeroDivisionError, C55); refuted: error may be the long way round.
* **C66 Written logs** (partial; LogWriteProps).
  Expansion of vector columns on writing; induction on rows and columns.  Gap: Proved for columns that hold only vectors or only scalars and without name collisions; quaternions (fourth component lost), unlogged vector rows (TypeError) and name collisions are refuted.
* **C67 Logging derivative evaluations never aborts a run** (partial; LogProps).
  Times of derivative evaluations against the log's row rule; rational arithmetic per tableau.  Gap: Proved for all methods but RK78Adaptive, for which it is refuted for every step.
* **C68 Base drag is accounted for throughout the flight** (partial; LogWriteProps).
  Automatic boat tails; induction on stages and separations.  Gap: Proved without derivative logging; with it, refuted for every rocket whose two lowest stages end without boat tail.
* **C69 Altitude and apogee end conditions** (partial; RunProps).
  End conditions; first-crossing characterisation.  Gap: Proved for flat and absent earth models; refuted for the spherical earth.
* **C70 Error estimates and uncertainty bands of grid convergence** (proved; GridProps).
  Uncertainty bands; real powers.  Note: Full statement; C70_default_misses shows that the default band can miss the limit.
* **C71 Hardware-in-the-loop packets keep their update rates** (partial; HilProps).
  HIL packet timing; arithmetic over sequences of times.  Gap: C71_rate_refuted: with a period that is a multiple of the step, packets come one step late (100 Hz with a 0.01 s step gives 50 Hz). C71_spacing and C71_multiple give the exact spacing
* **C72 Optimizations start where they should** (partial; StartProps).
  Swarm start positions and continuation files; list induction.  Gap: swarm positions and scipy continuation proved; C72_continue_refuted: a swarm continuation with two or more variables raises; C72_nested_refuted: a nested optimization minimises the outer cost function
* **C73 Slices of a fin cover exactly its planform** (proved; FinProps).
  Fin slices and numerical mean chord; sums in closed form, quadratic error bound.  Note: Real arithmetic in place of floats; trapezoidal fins with positive span and root chord and non-negative tip chord.
* **C76 Fin sets of any number of fins** (partial; FinProps).
  Fin directions and interference factor.  Gap: Refuted for five to eight fins: setting them up raises AttributeError (self.finNumber does not exist). Proved for the other numbers; directions proved for every number.
* **C74 Fins turn the rocket into the wind and damp its roll** (proved; FinForceProps).
  Fin forces by slices in all speed regimes; signs by real arithmetic, rotational sums over any number of fins by trigonometric identities.  Note: Real arithmetic in place of floats. Forces by slices (Barrowman subsonic, Busemann supersonic with Mach cone correction, cubic interpolation between Mach 0.8 and 1.4).
* **C75 Centre of pressure of fins** (partial; FinCPProps).
  Fin centre of pressure; continuity and derivative at joins (Coquelicot); the threshold of the aspect ratio is enclosed between 0.472 and 0.473 by a polynomial identity (a square times a positive cubic, plus a positive linear function).  Gap: Smoothness proved above the pole of the supersonic formula. Position on the chord proved from aspect ratio 0.473 upwards (C75_on_chord_partial) and refuted from the pole, about 0.29, up to 0.472 (C75_stubby_refuted, at Mach 1.2815), so the threshold is known to 0.001. Below the pole the centre of pressure passes through infinity above Mach 2 (C75_refuted).
* **C77 Body drag never accelerates the rocket** (partial; AeroForceProps, AeroGeomProps).
  Forces from coefficients; vector algebra over R, telescoping sums over stacks of components.  Gap: Proved for air meeting the rocket from the front half; refuted tail first: the axial factor is positive at every angle, so the axial force always points backwards along the rocket and pushes it along its motion.
* **C78 Skin friction is a continuous positive coefficient** (partial; AeroDragProps).
  Skin friction; monotonicity and continuity of powers and logarithms.  Gap: Positive (for smooth surfaces up to Reynolds number 1e100) and corrected continuously; refuted: the coefficient drops by more than 1.2e-4 at Reynolds number 500000 for laminar-start boundary layers.
* **C79 Centre of pressure of body components** (partial; AeroGeomProps).
  Moment algebra; closed forms of the Barrowman formula; ogive bounds from the integral of C84.  Gap: Reported point, tubes, narrowing transitions and tangent ogives of aspect ratio >= 1/2 proved; refuted: every cone has its centre of pressure a third of its length above its tip, every widening transition below its bottom. Positions of nose cones are ignored by the code.
* **C80 Columns of aerodynamic coefficient tables may be in any order** (proved; AeroForceProps).
  Header parser and placement of values; list induction, permutations.  Note: Duplicated coefficient columns excluded for the value theorems (the last one would win).
* **C81 Damping moments oppose rotation** (partial; AeroForceProps).
  Sums of segment moments; induction on the number of segments, |v|v >= 0.  Gap: Damping proved dissipative; refuted: transverse damping depends on the direction of the axis because components are squared separately.
* **C82 Lift is perpendicular to the air flow and drag along it** (partial; AeroForceProps).
  Rotation of the normal direction; Rodrigues formula, acos/sin identities.  Gap: Proved unless the air flows exactly across the rocket or within the snap-to-zero tolerance of it; refuted there: lift is then parallel to the air.
* **C83 Pressure drag is a continuous non-negative coefficient** (partial; AeroDragProps).
  Pressure drag; continuity with Hermite interpolation at the joins.  Gap: Refuted at Mach exactly 1 (ZeroDivisionError), for equal diameters and widening boat tails (AttributeError); proved elsewhere.
* **C84 Volumes and areas of body components belong to their outline** (partial; AeroGeomProps).
  Riemann integrals (Coquelicot is_RInt) of the outline, antiderivative of the circle.  Gap: Tangent ogives (aspect ratio >= 1/2; > 1/2 for the planform area), planform area of cones and narrowing transitions proved with Riemann integrals. Refuted: volume of cones is four times too large, volume of widening transitions negative, half series noses cannot be built.
* **C85 Geometry queries of a stage** (partial; AeroGeomProps).
  Component search and folds over component lists; induction.  Gap: Refuted for steps in diameter (transition of zero length): ZeroDivisionError. Radius theorem assumes components covering the position have a getRadius.
* **C86 Mean wind models** (partial; WindProps).
  Real analysis of the power law, convexity of the squared length, list computation for the histogram.  Gap: Power law, tables and headings hold. Sampled speeds: probabilities sum to one, but the extreme bins are one too low (C86_speeds_refuted) and one is negative for calm locations.
* **C87 Radio sonde profiles** (proved; WindProps).
  Induction over a file given as a list of profiles; sorting as a parameter with its specification (permutation and order).
* **C88 The rocket starts where and as the definition says** (partial; RocketProps).
  Composition of the proved properties of rotations, earth frames and the rail.  Gap: Position, axes, velocity and spin at launch and the rail proved for every earth model; directions within 1.4e-4 rad of vertical are made vertical, straight down is the zero quaternion (C65_down_refuted); the claim that the first step does not displace a rocket on a rail is refuted, its displacement proved in general.
* **C89 Air seen by the rocket and the switch to three degrees of freedom** (partial; RocketProps).
  Rotations undone in local coordinates; induction over component lists.  Gap: Air, parachute and motion parts proved; the variables of components are lost at the switch (C89_variables_lost, C89_mass_lost, C89_refuted).
* **C90 Stage separation is mechanically neutral** (partial; RocketProps).
  Algebra from the conservation laws characterising combined inertias (C14).  Gap: Mass, linear momentum and common centre of gravity proved; displacement of both bodies and loss of angular momentum proved exactly and refute the rest.
* **C91 Variables of components are integrated with their own values** (partial; RocketProps).
  Induction over component lists.  Gap: Proved for components whose own requests match and for totals that do not; cancelling mistakes refute the rest.
* **C92 Stages can be reached by name and have their own log files** (partial; RocketProps).
  Induction over stages with dictionary lemmas.  Gap: Log files and, for stages not named like an attribute, attributes proved; a clash refutes the rest.
* **C93 Included files are added where they are included** (partial; DeriveProps).
  Step lemma of the parser, dictionary lemmas by induction on the included file.  Gap: Exact when no included key exists already; in general included values win. Refuted: included entries overwrite silently.
* **C94 Derived dictionaries are modified as their commands say** (partial; DeriveProps).
  Relational specification of textual replacement, removal and chains of commands; parser lemmas of C07.  Gap: For commands that leave the derived keys distinct. Refuted: merging keys lose values; indented unknown commands become entries.
* **C95 A convergence study varies only the step** (partial; ConvProps).
  Induction over the number of simulations with the histories as invariant; closed form of the asymptotic check.  Gap: Proved for all studies that end; refuted for flights with a constant coordinate (ZeroDivisionError).
* **C96 Comparison tables of integration schemes line up** (partial; ConvProps).
  Induction over the schemes, using C95 for each.  Gap: Without control systems that adjust the step and without mixing kinds of schemes; refuted otherwise.
* **C97 The command line starts what definition and options ask for** (partial; ConvProps).
  Case analysis against predicates on the definition (C01 for its dictionaries); list search.  Gap: Choice and file search exact; refuted: ignored options, empty definitions run as batch.
* **C98 A parameter sweep logs every condition** (partial; SweepProps).
  Induction over the conditions, with the table invariant of the log (C06) and the set of logs reachable from the rocket created last.  Gap: One row per condition and the values of the rocket hold; the columns of components (zero after the first condition), the reference quantities (those of the last rocket) and logging level 0 are refuted.
* **C99 Coefficients in the expanded log** (partial; CoeffProps).
  Induction over the columns with an invariant on the dictionary built so far; names by string lemmas; vector algebra for drag and lift.  Gap: Coefficients, drag, lift and normal force as the formula says; refuted: drag for rockets that are not upright, repeated expansion, intermediate columns; no finite coefficients in still air.
* **C100 The control system drives the actuators of the system it is given** (partial; ControlProps).
  Induction over the sequence of calls with an invariant tying the control system to the calls it acted on; the PID and actuator theorems of C32 and C33 give each step; induction over stages and components for the search.  Gap: Loop, gains, moments, targets, log and column handling proved for every sequence of calls. Refuted: default rate with a PID controller, controlled fins on an upper stage when a boat tail was added, order of the Desired columns, logged targets, dropping the controlled stage after the stepping was modified.
* **C101 Recorded flights and the frames of animations** (partial; PlotProps).
  Cases of the split point of the sorted times; induction over recordings with the rows built so far.  Gap: Times, positions, velocities, angular velocities and deflections proved for every list of flights; refuted: orientation (last frame shows the launch orientation) and flights whose control system is given up (IndexError).
* **C102 Plots show the requested columns of the logs** (partial; PlotProps).
  Invariant of the cache over any sequence of reads; induction over the logs with the names plotted so far; permutations for taking out the times.  Gap: Proved for definitions that do not select Time(s) nor a column twice; both cases refuted, as is the cache for files changed after reading.
* **C103 Batch runs: every case with its own definition and overrides** (partial; CaseProps).
  Lookup in the definition after a fold of writes, keyed by the override prefix; induction over the cases with equality of the definitions outside the results of earlier cases as invariant.  Gap: Selection, overrides, logging level and independence of the cases are proved for all definitions; refuted: a case whose definition can not be loaded ends the batch, and default recording records nothing in the run that announces it.
* **C104 Values of a parameter sweep** (partial; CaseProps).
  Splitting lemmas of texts; arithmetic of equally spaced values over the rationals; reading back by C106.  Gap: Ranges of numbers and vectors and lists of texts without commas are proved; refuted: lists of vectors written with commas are taken apart.
* **C105 Validation against comparison data** (partial; CaseProps).
  Induction over the comparison points with the interpolation theorem C15; uniqueness of the interpolated value.  Gap: Single curve (one or more comparison sets) proved; refuted: with several curves the smallest signed error is taken, not the closest curve.
* **C106 Texts of vectors** (partial; VecTextProps).
  Splitting and stripping lemmas on texts with arbitrary tokens and arbitrary blanks.  Gap: Accepted formats, round trip and refusal of other numbers of components are proved; refuted: a missing closing bracket is not refused, it drops a character.
* **C107 Ground winds sampled from wind roses** (partial; WindRoseProps).
  Area under the histogram as a function of the limit, inverted by induction over the bins; interpolation weights common to all rows; induction over the tables for the average.  Gap: Histogram drawing, headings, averaging and reading are proved for all tables with weights adding up to one and at least 1.4 % in the last column; refuted: speeds do not follow the recorded frequencies (densities), weights not adding up to one scale the headings. scipy and numpy functions are modelled from their documentation.
* **C108 A flight without air is a parabola** (proved; BallisticProps).
  Every stage of every method is v + a c for some c; sums over the rows of the tableaus give the parabola with an error from the entries eps that stand for zero; induction over the steps with an invariant on the cached last stage of first-same-as-last methods.  Note: All selectable methods. The 1e-15 comes from the entries 2e-16 the code puts for zeros of the tableaus; C108_euler gives the exact lag of Euler's method; C108_completes and C108_names say when the flight goes through.
* **C109 Names select their models** (partial; FactoryProps).
  Relations between texts and models, proved equivalent to the factories case by case; induction over the words of the places; evaluation of look-ups in the default dictionary.  Gap: Proved: exact characterisation of the environments made (C109_environment), refusal, independence, defaults. Refuted: that every documented choice works (controller constant, gust without direction, fractional turbulence).
* **C110 The rocket has the stages and components of its definition** (proved; AssemblyProps).
  Sorting by keys (permutation and order) over the exact description of sub-dictionaries (C01) and look-ups (C06); fold invariant 'largest so far'.  Note: The order of stages is that of a set and fixed later by sorting (C47); look-ups of class and diameter assume that nothing is stored under the path written twice, where readers look first.
* **C111 A rocket that was constructed is ready to fly** (partial; AssemblyProps).
  Induction over the components.  Gap: Refuted: a missing attribute in the preparation of a component is taken for 'nothing to prepare', so five to eight fins fail only in flight. Proved: everything else that was prepared is there, other errors stop the construction.
* **C112 Components sit where the definition puts them, with the inertia it gives** (partial; AssemblyProps).
  Vector algebra; the interpolation theorem C15 for each entry of a line.  Gap: Refuted for forces, which are not placed relative to their stage, and for moments of inertia that can not be read, which are replaced. Fixed masses, stage overrides and tabulated inertias are proved.
* **C113 Length and fineness ratio of the rocket** (proved; AssemblyProps).
  Telescoping sum over the stacked bodies by induction; maximum of a fold.  Note: Stated for bodies stacked without gaps, in the order of the lists (sorted top to bottom, C47).
* **C114 Drag of fins** (partial; FinDragProps).
  Sign of every summand; K >= cos^2 from the square in its definition; continuity of the pieces glued at their joints, except at Mach 1; monotone in the edge thickness; witness fin for the jump.  Gap: The full claim is false at Mach 1: C114_exists_refuted (division by zero) and C114_continuous_refuted (jump). Positivity holds at all other Mach numbers; continuity is proved off Mach 1 (and off 0.9 for round leading edges). C114_sonic says when the value at Mach 1 exists.
* **C115 Console output is recorded and shown** (partial; ConsoleProps).
  Invariants of the console state (which logger is active) over print, start, stop; induction over the runs of a study and the conditions of a sweep.  Gap: C115_record_partial and C115_terminal give the exact record and screen of any simulation from any console state; C115_study covers studies of any size. False in full: system information missing from the second simulation on (C115_record_refuted), trace of a crash not recorded (C115_trace_refuted), console not given back after a silent simulation (C115_released_refuted), record of a sweep has only its last condition (C115_sweep_refuted).
* **C116 The report of a Monte Carlo study** (partial; ReportProps).
  Membership of names in the joined text of wishes (contains_join); algebra of sums for mean and deviation; induction over the lines of the log.  Gap: Two runs or more: C116_parts, C116_file, C116_log, C116_mean, C116_deviation. A single run fails (C116_single_refuted). The landing plot leaves out points (C116_plot_refuted); C116_plot_partial: heights are always in range, and for two runs everything.
* **C117 Motor definition files** (proved; MotorFileProps).
  Induction over lines for the removal of comments and empty lines; str.index characterised by first occurrence; both directions of each equivalence.  Note: C117_file is an equivalence for every layout and C117_any_text shows every text to be one; C117_row characterises rows; C117_written shows what rows written with any white space mean. float() and the reading of a vector are those of C106.
* **C118 Continuation files of swarm optimizations** (partial; ContinueProps).
  The written entries as a list without repetitions (keys differ by particle number and variable name), look-up after a sequence of assignments; the restart by finding a permutation between particles written and dictionaries found, and C72 for the start itself.  Gap: C118_rest, C118_positions, C118_restart: what is written and how a swarm starts from it. C118_file_partial: for names with .mapleaf at the end only. C118_overwritten_refuted: a definition with another ending is overwritten. C118_lost_refuted: the result is lost for definitions without a file. C118_plots_refuted: plots asked for are not in the continued definition.
* **C119 What an optimization evaluates** (partial; CostProps).
  The cost by cases of the text; the dependent variables by the last occurrence of the dictionary's name; batches by induction over the sorted cases with the batch definition unchanged; parallel costs as the composition of preparing and running, element by element.  Gap: C119_expression, C119_function, C119_crash, C119_cases, C119_method, C119_particles: as stated. C119_dependent_partial: keys that do not contain DependentVariables (C119_repeated_refuted). C119_parallel_partial: without nested optimization (C119_nested_refuted). C119_colon_refuted: expressions with a colon are not evaluated. C119_bare_refuted: IndexError for a method without name. C119_particles_refuted: the default number of particles cannot be reached.
* **C120 Uncertain parameters outside Monte Carlo studies** (partial; UncertainProps).
  The value of a parameter after loading from the result on sampling (C08), carried through the preparation of trials, which changes no other key; the claims themselves fail on one uncertain parameter.  Gap: Both clauses are refuted (C120_study_refuted, C120_trials_refuted). C120_study_partial: without uncertain parameters the study is of the definition given. C120_study_sampled, C120_trials: what is used instead, the values drawn when the definition is loaded.
* **C121 Flight animations** (partial; AnimProps).
  Rodrigues' formula (C11) about the axis of height, by induction over the fins; rotations keep lengths and angles (C11); events from the split of the sorted times (bisect); induction over frames with the invariant that a stage is gray exactly if it has been at its last position; success from the result on frames (C101).  Gap: Drawing, canards, parachutes, colours, frames and the fins hold. False: the last frame is missing, axes leave out points, unpowered dropped stages and unequal numbers of actuators fail, the file name is fixed.
* **C122 Flights after plotting** (partial; AnimProps).
  Extremes and means of lists by induction; the flights returned are the frames of C121.  Gap: All positions are drawn and the axis of height contains them; other plots leave the flights alone. False: horizontal axes leave out points; the animation replaces the flights.
* **C123 Recorded results of batch runs** (partial; RecordProps).
  Induction over entries, with the specification of the column found of C40; a second run compares each value with itself (C40's verdict).  Gap: Recording and a second run hold for numbers, and for sweeps without refinement (…_partial). False: with refinement the second run is an IndexError; a missing column ends the batch; NaN fails; no default values are recorded; definitions with other endings are overwritten.
* **C124 Plots of batch cases** (partial; BatchPlotProps).
  Induction over the logs; a log is `tidy` if no specification matches two columns and no column two specifications.  Gap: With tidy logs exactly the curves asked for are drawn, and the data kept for the validation are theirs; labels, axis scale, missing columns and over-general specifications are refuted.
* **C125 Files of figures** (partial; BatchPlotProps).
  Splitting at the last dot; the three formats have different paths, so the dictionary lemmas apply.  Gap: Holds for names with an extension in a directory that exists; refuted for names without extension or with dots, and for locations without directory.
* **C126 Time step log of a flight** (partial; StateLogProps).
  A flight is translated into a list of log operations; the table specification of C35 then gives the columns (induction over the steps). Euler angles: C56 for the orientation relative to the local frame, whose axes are computed by Rodrigues' formula (C11) and C49.  Gap: Rows, columns and order proved for every flight. The Euler angles give the axes of the rocket except with its x axis vertical (C126_euler_refuted, from C56).
* **C127 Drawing of the rocket** (partial; ShapeProps).
  Points on a line are parametrised segments; each outline is compared with the radius function of its component. Fins: cosines of the angles of three and four fins.  Gap: Body components and one fin are drawn right, sets of three and four fins completely (C127_fins_partial), other numbers not (C127_fins_refuted); centres of gravity of components without outline are missing (C127_masses_refuted); a nose of diameter 0 raises (C127_point_refuted).
* **C128 Turning, moving or delaying a launch** (partial; DescentProps, RollProps, SixAeroProps, SixProps).
  Two runs are related (one is the other turned by a rotation about the vertical, moved and delayed); generic logical-relation lemmas carry the relation through the stages of every integrator, the error norm, the adaptive step control and any number of steps. Components: the forces of bodies of revolution are built from rolled vectors; the forces of fins are exchanged by a roll and their sum does not depend on the order. Descents: the same relation for points.  Gap: Proved for whole flights of the model, ascent and descent; the part about the launch direction of the definition holds for rockets that are rotationally symmetric and is refuted in general (C128_setup_refuted: a turned launch direction also rolls the rocket). Nose cones and transitions have the symmetry; sets of n fins for every n-th part of a turn; body tubes only for quarter turns (C128_tube_refuted).
* **C129 Flights in a stronger wind** (partial; DescentProps, DriftProps).
  Two runs are related by a drift that grows with the time: graded logical relations, in which an increment carries the sum of the weights it was built with, go through the stages of every integrator, the step control and any number of steps; the sums of the weights of the built-in tableaux are computed.  Gap: Exact for Euler's, Heun's and the two classical fourth-order methods with fixed steps (C129_exact, C129_whole); for the other fixed-step methods the drift is the wind times the sum of the weights, which differs from 1 by at most 1e-15 (C129_drift_partial, C129_weights). For adaptive methods the theorem needs equal sums of the two weight sets; the built-in pairs differ by about 1e-16 because zeros of the tableaux are replaced, so their error estimates, and with them the steps, are not exactly the same: this part is missing.
* **C130 Straight flights** (proved; RollProps, StraightProps, UprightProps).
  The flight of the body and that of the point are related step by step (graded relation between two types); uprightness is an invariant of states, increments and derivatives carried through every integrator by a diagonal relation. Components have axial forces in axial flow because a half turn (or, for n fins, an n-th of a turn: a permutation of the fins) maps the force to itself and leaves only axial vectors fixed.  Note: For flights over the flat earth; control systems and events are not part of the flight model. The forces of nose cones, transitions, body tubes and fin sets in axial flow are axial (C130_nose, C130_transition, C130_tube, C130_fins, C130_sum); that of a canted set includes a rolling moment.
* **C131 Hardware in the loop: real time and replies** (partial; HilLoopProps).
  The serial buffer is a queue of bytes; first in, first out by induction over reads and over passes; the wait ends at the first clock reading not before the simulated time.  Gap: Replies in time, missing lines, real time and set-up are proved; that a late or cut reply does no lasting harm is refuted (stale lines shift all later angles).
* **C132 Hardware in the loop: the hardware steers the rocket** (partial; HilLoopProps).
  The states of the loop with hardware are shown to be those of the loop without, by induction over time steps.  Gap: Refuted: the flight does not depend on the replies (they are stored and never read). Real time is proved.
* **C133 The cost of a controlled flight** (partial; PidCostProps).
  The file of the control log from the written-file theorem of C66; selection of sorted columns; error bound against the Riemann integral (Coquelicot) by induction over intervals.  Gap: Proved with the weights of yaw and roll exchanged, which is what the code computes; the stated weights are refuted (equal only if the yaw and roll sums are).
* **C134 Plots of a grid convergence study** (partial; ConvPlotProps).
  Axes as a world that drawings extend; inversion of the whole plot into its states, then C43_curve_partial and C70_bands for the values and a map of the three saves for the files.  Gap: Holds for two or more locations (one raises: C134_single_refuted), axes given with their figures (C134_axes_refuted) and directories whose path has no dot (C134_saved_refuted).
* **C135 Comparing values** (partial; EqProps).
  Universe of values with Python's dispatch of == (reflected comparison, attribute look-up through composite states); mutual induction over composite states of the same kinds, against the list of numbers a value consists of.  Gap: Proved for values of the same kind (C135_same_partial, C135_equivalence_partial) and for definitions (C135_definitions). Refuted between kinds: exceptions (C135_kinds_refuted), asymmetry (C135_symmetric_refuted), composite states with additional variables (C135_length_refuted, C135_transitive_refuted), three degree of freedom states (C135_three_dof_refuted).

## Which code is modelled

| file under MAPLEAF/ | modelled in | not modelled |
|---|---|---|
| IO/simDefinition.py | KeyModel, ParseModel, DefModel, EqModel (comparison) | default dictionary contents, __str__ beyond the writer, file access (abstract file system) |
| IO/subDictReader.py | DefModel | getImmediateSubDicts wrappers that only forward |
| IO/CythonLog.pyx, IO/Logging.py | LogModel, ParallelModel, ConsoleModel (capture of the console), ReportModel | pretty printing |
| IO/Plotting.py | BatchModel (reading result columns), PlotModel, AnimModel (see below) | drawing by matplotlib and mayavi |
| IO/rocketFlight.py | FlightModel | - |
| IO/gridConvergenceFunctions.py | GridModel, ConvPlotModel (plots) | zoomed inset, styles and limits of axes, printing; scipy's interp1d and matplotlib are parameters |
| IO/HIL.py | HilModel, HilLoopModel | serial port set-up, sleeping; the driver's buffer is a queue of bytes |
| Motion/CythonVector.pyx, CythonQuaternion.pyx, CythonAngularVelocity.pyx | GeomModel, VecTextModel (texts), EqModel (comparison) | plotRotation |
| Motion/Interpolation.py | InterpModel | scipy wrapper |
| Motion/inertia.py, forceMomentSystem.py | MechModel, EqModel (comparison) | __str__ |
| Motion/Integration.py | IntegModel, StateModel, BallisticModel (selection by name) | scipy-free: everything but console output |
| Motion/RigidBodyStates.py, RigidBodies.py | GeomModel, StateModel, IntegModel, EnvModel, BallisticModel, SixModel (6-DoF flights over the flat earth), DescentModel (3-DoF descents), EqModel (comparison) | text output |
| Motion/AeroParameters.py | CacheModel, AeroModel, RecoveryModel | Reynolds number by local conditions |
| Rocket/rocket.py, sampleStatefulRocketComponent.py | RocketModel, EventModel, RunModel, LogModel, StateLogModel (time step log), ShapeModel (drawing), SixModel (forces and moments of a flight), EnvModel, MechModel, GncModel | control system creation |
| Rocket/stage.py, CompositeObject.py | MechModel, EventModel, AeroModel, AssemblyModel | plotting |
| Rocket/simEventDetector.py, Recovery.py, Propulsion.py | EventModel, RecoveryModel, MotorModel, MotorFileModel | - |
| Rocket/RocketComponents.py | MechModel, AeroModel, AssemblyModel | sample force component |
| Rocket/RocketComponentFactory.py | AssemblyModel, SweepModel (logging) | - |
| Rocket/Fins.py, CythonFinFunctions.pyx | FinModel, FinDragModel, ShapeModel (drawing) | actuated deflections enter as given angles |
| ENV/MeanWindModelling.py | WindModel, WindRoseModel, FactoryModel | parsing of the table files (pandas), choice of the location of radio sonde data |
| Rocket/AeroFunctions.py, noseCone.py, bodyTube.py, boatTail.py | AeroModel, ShapeModel (drawing) | |
| GNC/PID.py, Actuators.py, ControlSystems.py, MomentControllers.py, Navigation.py | GncModel | user-supplied controllers |
| ENV/EarthModelling.py, environment.py, launchRail.py | EnvModel, RocketModel, FactoryModel (selection by name) | - |
| ENV/AtmosphereModelling.py | AtmosModel, FactoryModel | reading the table file |
| ENV/TurbulenceModelling.py | TurbModel, FactoryModel | choice of generator seeds |
| SimulationRunners/SingleSimulations.py | RunModel, EventModel, BatchModel, LogModel, ConsoleModel | text of progress messages |
| SimulationRunners/Batch.py | BatchModel, CaseModel, RecordModel, BatchPlotModel (plots of cases; IO/gridConvergenceFunctions.py: names of saved figures) | drawing, labels of axes, regression test printing |
| Motion/CythonVector.pyx texts | VecTextModel | number parsing and formatting (parameters) |
| SimulationRunners/MonteCarlo.py | ParallelModel, ReportModel (report and plotted ranges) | drawing |
| SimulationRunners/Optimization.py | OptModel, StartModel, ContinueModel, CostModel, UncertainModel | the optimizers of scipy and pyswarms themselves |
| Utilities.py | CacheModel, MechModel, OptModel | - |
| SimulationRunners/SingleSimulations.py WindTunnelSimulation | SweepModel | creation of the rocket (parameter) |
| IO/Logging.py postProcessForceEvalLog | CoeffModel | file reading and writing; rows are independent |
| GNC/ControlSystems.py, MomentControllers.py, Actuators.py, actuatedSystem.py together | ControlModel | the interpolated table (parameter), file names of logs |
| IO/Plotting.py (data selection), SimulationRunners/SingleSimulations.py (recording of flights) | PlotModel, AnimModel (frames of animations, flight paths) | drawing of lines by matplotlib, earth plots (mayavi), reading of files (parameter), regular expressions (parameter), states with extra variables |
| SimulationRunners/Convergence.py, Main.py | ConvModel | wall times, plots, printing, argument parser |
| OptimizationFunctions/ | PidCostModel | printing |
| Examples/, setup.py, benchmarks/ | - | not modelled |


## Disagreements between the claims and the code

Each of these is proved (theorem with suffix `_refuted`, or a theorem describing the behaviour exactly) unless marked (noted).

* C02 a dictionary of the same name at the same depth in another parent is merged into the previous one when written and read back.
* C03 lines after a stray `}` are dropped silently.
* C05 a key that is itself the name of a dictionary with a class hides the class default.
* C07 `!create` replaces the parent path anywhere in a key and overwrites silently.
* C08 a mean that has its own standard deviation drifts; disabled sampling does not reach included files.
* C09 states of different lengths may compare equal; mutated arguments give stale results.
* C10 getAOA/getAOSS change the cached air velocity.
* C14 equal bodies are counted once in sums of inertias.
* C18 a target error of 500000 or more raises; a rejected attempt with error exactly 1e7 is not counted.
* C19 the safety factor is applied after limiting the step; a zero error raises ZeroDivisionError.
* C20 the reused derivative is not reset when the state is edited between steps.
* C21 derived states share one name map; operands of different sizes are truncated.
* C22 orientation interpolation has its weights exchanged.
* C24 staging ignites the top stage, wrong from three stages up; one check may drop two stages; the simulated dropped stage is chosen by stage number.
* C25 equal oxidizer and fuel inertias are counted once, so mass can grow; C59 the shut-off time is taken before burn-time scaling.
* C26 thrust before ignition is the first table value.
* C27 the rail force mixes frames, may push backwards, and keeps the initial direction of the rail when the earth turns.
* C29 below -2000 m geopotential altitude the layer index wraps to the topmost layer.
* C31 queries at earlier times extrapolate; the third gust component copies the second.
* C32 updating gains drops the integral limit. C33 limits that exclude the rest position are violated at first.
* C34 the absolute tolerance of 1e-10 s makes tiny periods run early.
* C35 values can be logged to the time column; a column called "default" changes every fill value.
* C36 reuse of a derivative deletes one log row too many; rows are deleted from the logs of all stages.
* C37 adaptive methods overshoot the end time; a stage detached in the shortened last step keeps that step.
* C38 success at the 51st attempt still raises and leaves an empty folder.
* C39 a failing worker aborts the whole run.
* C40 NaN passes where 0 is expected; missing columns raise TypeError; a constant expectation skips the last refined point.
* C42 the landing test is inverted in the air; the apogee search starts at -1e7.
* C43 orders are clipped to 2, so the extrapolation is wrong above; equal values raise ZeroDivisionError.
* C46 stale inertia behind the cache. C47 stage interfaces are never created.
* C48 a crash may cost less than the worst success; variables with one path overwrite each other.
* C50 the stall angle is in degrees and compared with radians: fins never stall.
* C51 removing a never-read key makes the report raise. C52 all texts are required where any was documented.
* C53 slerp returns the increment. C55 the rotation axis of (-1,0,0,0) raises. C56 gimbal lock. C57 angles with cosine within 1e-8 of 1 are 0.
* C58 `+=` on composite states appends, so adaptive methods take a wrong step.
* C61 horizontal launch position is ignored on a round earth; the spin is turned by the local frame; local velocity contains the earth's rotation.
* C65 straight down gives the zero quaternion; the error may be the long way round.
* C66 quaternions lose a component when written; unlogged vector rows raise; name collisions destroy columns.
* C67 RK78Adaptive with derivative logging raises in every step. C68 a second automatic boat tail raises at staging.
* C69 on a round earth the altitude condition uses inertial Z.
* C71 HIL packets come one step late when the period is a multiple of the step.
* C72 swarm continuation with two or more variables raises; a nested optimization minimises the outer cost.
* C75 the fin centre of pressure passes through infinity for aspect ratios below 0.29 and lies ahead of the leading edge up to 0.472. C76 five to eight fins raise AttributeError.
* C77 drag pushes along the motion when flying tail first. C78 friction drops at Reynolds number 5e5.
* C79, C84 the volume of a cone is four times too large, so its centre of pressure is above its tip; widening transitions have negative volume.
* C81 transverse damping depends on the direction of the axis. C82 lift is parallel to the air at exactly 90 degrees.
* C83 Mach exactly 1, equal diameters and widening boat tails raise. C85 the radius of a zero-length transition raises.
* (noted) restoreOriginalTimeStepping refers to attributes that do not exist; subscribing with an unknown event type raises after two of four lists have grown;
  parallel PSO ignores InnerOptimization; sampled values of parallel Monte Carlo runs go to a copied logger; the nose cone's centre of pressure ignores its position;
  the ogive's wetted area is a sum over 2001 samples without the slope of the surface.
* C86: the sampled ground wind speed has a 0.4 % chance of 25 mph or more and none of 31 mph or more, where the code documents 1 % and 0.4 %; with less than 1.4 % of the wind
  in the last column one bin has a negative probability. (noted) choosing a radio sonde profile reseeds the global random generator.
* C88: the rail is given the nose tip as its start but constrains the centre of gravity, so at the first step a rocket on a rail is displaced forward by the distance between the two.
* C89: variables of stateful components are dropped by the switch to three degrees of freedom and the next mass or force evaluation of such a component raises AttributeError.
* C90: at separation both bodies get the position of the common centre of gravity as that of their own and keep velocity and spin: both jump towards each other and angular momentum is lost.
* C91: numbers of names, values and derivatives are compared in total only; mistakes of different components can cancel and misalign.
* C92: a stage named like an attribute of the rocket can not be reached and dropping it deletes that attribute.
* C93: an included entry silently overwrites an earlier definition of the same key, while in one file the second definition is refused.
* C94: `!replace` can give two keys of the derived dictionary one name; one value is lost silently. An indented unknown command becomes an entry named like the command.
* C95: a study of a flight of which one coordinate of the final position does not change (e.g. straight up) stops with ZeroDivisionError after the third simulation. (noted) the documented results (order of convergence, extrapolated position) are not returned, and the third result is a flight instead of wall times if it stops early.
* C96: a control system changes the time step during the run that finds the end time, so the comparison starts elsewhere; schemes of the other kind share rows labelled with steps they did not use.
* C97: a definition without any dictionary is run as a batch; convergence options are ignored for Monte Carlo, optimization and batch definitions.
* C98: after the first condition of a sweep the columns of all components hold zero vectors (components of later rockets append to a log that is dropped); the coefficients of all rows use the reference area and diameter of the last rocket; the logging level is read before the sweep sets it to 3, so a definition with level 0 returns no file. (noted) the override `_setUpLogging` is never called; sweeps without values raise IndexError or AttributeError.
* C99: drag and lift combine a force in the frame of the rocket with an air velocity in the global frame, so Cd and Cl are wrong for every rocket that is not upright; still air gives no finite coefficients; a second expansion is not refused as the guard looks for a column ("AeroCFX(N)") that is never written; intermediate columns are not dropped (the result of `drop` is not kept).
* C100: with the default updateRate of 0 the first call of a PID controller divides by a time step of 0; a fin set on an upper stage can not be controlled on a rocket that had a boat tail added (the search reads an attribute the added part lacks); number, names and order of the Desired columns are not checked (a table with the columns exchanged is used as if they were not); logged targets are the table's values, not the limited ones; the ideal controller logs no error ever, as it logs after turning the rocket; dropping the controlled stage raises if the time stepping had been modified (adaptive scheme, or the control period is not a whole number of steps).
* C101: the last frame of a flight with six degrees of freedom shows the orientation at launch (weights of slerp exchanged and the pair first/last state used); after a control system is given up with its stage, the lists of deflections are too short and reducing the flight to frames raises IndexError.
* C102: a column selected by two parts of a definition is drawn twice; a definition part that selects Time(s) draws the times against themselves, after which plotting further logs raises UnboundLocalError; files changed after being read are shown as they were.
* C103: a case whose definition can not be loaded ends the whole batch; for a case without expected results the report says position and velocity are recorded, yet nothing is recorded or written in that run.
* C104: a list of vectors written with commas is taken apart into their components.
* C105: with several curves the smallest signed error is reported, not the closest curve (a curve 50 % too low is preferred to one that agrees).
* C106: a missing closing bracket silently drops the last character of the last number: "(1 2 33" is read as (1, 2, 3).
* C107: the shares of the speed columns are handed to rv_histogram, which takes them as densities, so wide columns are drawn too often (half of the winds calm, yet drawn with 36 % only); location weights that do not add up to one also scale the headings (weight 2: headings up to 540 degrees). (noted) a row centred on heading d is drawn from d-10 to d, a bias of 5 degrees.
* C109: the step-size controller "constant" offered by the template is refused (UnboundLocalError); a gust without direction is refused although documented to follow the wind; turbulence intensities and standard deviations must be whole numbers; (noted) other names containing PinkNoise and other ground wind models raise UnboundLocalError instead of the intended message, and the message for unknown turbulence models does not name the model.
* C111: errors of a missing attribute during preparation are dropped, so a rocket with a set of five to eight fins is constructed and fails at its first force.
* C112: forces (and tabulated inertias, noted) are not placed relative to their stage; a moment of inertia that can not be read is silently replaced by mass/100.
* C114: at Mach 1 the drag coefficient jumps (subsonic and supersonic thickness drag are different formulas that do not meet), and for every fin there is a value of the skin friction for which the first evaluation at Mach 1 divides by zero.
* C115: the system information is in the record of the first simulation of a process only (`getSystemInfo` is cached, and prints as a side effect); the stack trace of a crash is printed after the console record has been written; after a silent simulation the console stays captured, so that the caller's later output is lost; the record of a wind tunnel sweep has only the last condition (its override `_setUpLogging` does not have the name of the method it should replace).
* C116: the report of a single run fails (the standard deviation needs two values); the axes of the landing plot are the mean plus and minus half the extent, which leaves out points if the landing locations are not symmetric about their mean.
* C118: the name of the continuation file is made by replacing `.mapleaf`, so a definition in a file with another ending is itself overwritten; for a definition that is not from a file the result is lost by an AttributeError after the optimization; the plots switched off for the optimization are also off in the continued definition.
* C119: an expression with a colon (a slice, a conditional dictionary) is taken for the name of a function; a dependent variable whose key contains `DependentVariables` loses the part before it; a nested optimization is left out when costs are computed in parallel; `scipy.optimize.minimize` without a method is an IndexError instead of the explanation meant for it; a definition without `nParticles` is refused although the swarm has a default of 20; `nParticles` given outside the optimization dictionary is used for the initial positions, but the swarm then has 20 particles.
* C120: `disableDistributionSampling` is set on the definition after its constructor has sampled, so a convergence study uses the values drawn, not the means; optimizations copy the loaded definition for each trial and never sample again, contrary to the template.
* C121: the animation has one frame less than it prepares, so the last state is never shown; the axes are centred on the mean position, with 1.1 times the largest extent, which leaves out part of a flight whose mean is off its middle; a dropped stage without engine is a TypeError; stages with different numbers of actuators an IndexError; the file written is `SampleRocket.mp4`, whatever was asked for.
* C122: the animation replaces times and states of the flights by its 900 frames, and these are what the simulation returns; plots of flight paths leave out points as in C121 (not in height).
* C123: with `smoothLine` (the default) a sweep records all refined values, but the check reads every tenth, so the recorded definition ends the next batch in an IndexError; a column that is not found ends the whole recording with a TypeError (formatting of `None`); the default values are added to the definition after the list of keys to record was made, so they are not recorded; a recorded NaN fails; a definition in a file with another ending than `.mapleaf` is overwritten.
* C124: a plot without columnsToPlot is a TypeError that ends the batch; `xScale` is applied to the y-axis; a log with two of the columns but not the x-column, or more matching columns than specifications, is an IndexError; labels and formats start again with each log, so curves of the second log carry the labels of the first; a specification that also matches the x-column draws it as a curve, and the validation then pairs lists of different lengths; fewer labels than comparison columns is an IndexError.
* C125: the extension is cut at the last dot of the whole path: a name without extension in `./plots` is saved as `.png` etc. whatever it is called (the figures of grid convergence studies), `Cd_M0.8` and `Cd_M0.9` share a file; a `saveLocation` without directory is saved where MAPLEAF is installed.
* C126: with the x axis of the rocket vertical (gimbal lock, C56) the logged Euler angles do not determine its axes.
* C127: only sets of three and four fins are drawn completely; of any other number only one fin is drawn; the centres of gravity of components without outline (masses, motors, parachutes) are not marked, because the AttributeError of the missing drawing function skips the marker; a nose cone of diameter 0 ends the simulation with a ZeroDivisionError from an unused variable.
* C128: a launch direction turned about the vertical also rolls the rocket, so a rocket with anything on its side flies differently east and west; the pitch and yaw damping of body tubes squares the air speed coordinate by coordinate, so that a rolled tube has another damping moment except after quarter turns.
* C131: after one line of a reply that comes too late every later angle goes to the wrong canard, for the rest of the flight, although all later replies are in time (the input buffer is never cleared); a reply cut by the 1 ms time-out becomes the angles of two canards.
* C132: the canard angles received from the hardware are stored and never used: the flight is the same whatever the hardware replies.
* C133: log files have their columns in alphabetical order, so the columns taken for yaw and roll are those of roll and yaw: the yaw error gets the double weight meant for the roll error.
* C134: a study of one location cannot be plotted with its uncertainty (numbers instead of lists are zipped); axes given without their figure are ignored when the plots are saved, except those for the uncertainties, which raise (line 291 asks for the axes twice); in a directory such as `./plots` nothing is saved: the three figures overwrite each other as `.png`, `.eps` and `.pdf` in the working directory.
* C135: quaternions and force-moment systems raise AttributeError when compared with numbers or vectors; a rigid body state equals a composite state beginning with it but not the other way round; composite states of different lengths can be equal; three degree of freedom states are equal only to themselves.


## Print Assumptions, theorem by theorem

D = `ClassicalDedekindReals.sig_forall_dec`, N = `ClassicalDedekindReals.sig_not_dec`,
F = `FunctionalExtensionality.functional_extensionality_dep`, C = `Classical_Prop.classic`; `-` = closed under the global context.
All four are axioms of the standard library (the first three come with `Coq.Reals`).

* C01: C01_isSubKey_exact [-]; C01_getSubKeys_exact [-]; C01_getSubKeys_order [-]; C01_getImmediateSubDicts_exact [-]; C01_getImmediateSubDicts_NoDup [-]; C01_getImmediateSubKeys_exact [-]; C01_getImmediateSubKeys_NoDup [-]; C01_split_rejoin [-]; C01_split_levels [-]; C01_split_top [-]; C01_parent_is_ancestor [-]
* C02: C02_roundtrip_partial [-]; C02_refuted [-]
* C03: C03_tree_exact [-]; C03_duplicate_rejected [-]; C03_parse_sound_partial [-]; C03_refuted [-]
* C04: C04_terminates [-]; C04_acyclic_not_rejected [-]; C04_ok_only_if_acyclic [-]
* C05: C05_spec_functional [-]; C05_lookup_partial [-]; C05_lookup_any_key [-]; C05_refuted [-]; C05_reads_do_not_write [-]; C05_store [-]; C05_usage_exact [-]
* C06: C06_relative_first [-]; C06_usage [-]; C06_try_get [-]; C06_subkeys [-]; C06_subkeys_relative [-]; C06_dict_name [-]
* C07: C07_create_exact_partial [-]; C07_renamed_spec [-]; C07_rename_refuted [-]; C07_overwrite_refuted [-]
* C08: C08_no_drift_partial [-]; C08_disabled [-]; C08_refuted [-]; C08_disabled_include_refuted [-]
* C09: C09_transparent_partial [-]; C09_proviso_necessary [-]; C09_refuted [-]; C09_mutable_arguments_partial [-]; C09_mutable_arguments_refuted [-]; C09_state_lists [-]
* C10: C10_untouched_partial [CDFN]; C10_repeat_partial [CDFN]; C10_refuted [CDFN]; C10_roll_angle [CDFN]
* C11: C11_rigid [DFN]; C11_compose [DFN]; C11_undo [DFN]; C11_negation [DFN]; C11_side_effect [DFN]; C11_rodrigues [DFN]; C11_division [DFN]
* C12: C12_vector_space [DF]; C12_dot [DFN]; C12_cross [DF]; C12_normalize [DFN]; C12_indexing [DF]
* C13: C13_transfer [DF]; C13_chain [DF]; C13_sum [DF]; C13_difference [DF]
* C14: C14_combine_partial [DF]; C14_order_grouping [DF]; C14_about_point [DF]; C14_rejects [DF]; C14_add_partial [DF]; C14_refuted [DF]
* C15: C15_total [DF]; C15_piecewise_linear [DF]; C15_nodes [DF]; C15_between [DF]; C15_monotone [DF]; C15_weights [DF]
* C16: C16_inverse [DF]; C16_ends [DF]; C16_reproduces [DF]; C16_finite_difference [DF]; C16_straight_line [DF]
* C17: C17_consistent [-]; C17_check_exact [-]; C17_textbook [DF]; C17_time [DF]; C17_quadrature [CDFN]; C17_linear [DF]; C17_order_conditions [-]
* C18: C18_step_partial [DF]; C18_builtin_partial [DF]; C18_huge_target_refuted [DF]; C18_refuted [DF]
* C19: C19_limits_partial [DF]; C19_limits_pid [DF]; C19_unlimited [DF]; C19_refuted [DF]; C19_zero_error_refuted [DFN]; C19_elementary [DFN]; C19_pid_input [DF]
* C20: C20_reuse_point_partial [DF]; C20_quadrature_partial [DF]; C20_refuted [DF]; C20_not_fsal [DF]
* C21: C21_read_partial [-]; C21_construct [-]; C21_norm [DF]; C21_derivatives [-]; C21_shared_names_refuted [D]; C21_truncated_refuted [D]; C21_names_refuted [D]
* C22: C22_vectors_partial [CDFN]; C22_constant [CDFN]; C22_orientation_swapped [CDFN]; C22_refuted [CDFN]
* C23: C23_once [-]; C23_fires_when_due [-]; C23_subscribe [-]; C23_estimate [-]; C23_burnout [-]
* C24: C24_drops_lowest [-]; C24_ignites_two_stages [-]; C24_refuted [-]; C24_double_drop_refuted [-]; C24_detached_partial [-]; C24_simulated_partial [-]; C24_not_simulated [-]; C24_detached_refuted [-]
* C25: C25_each_propellant [DF]; C25_centre [DF]; C25_burn_factor [DF]; C25_total_partial [DF]; C25_refuted [DF]
* C26: C26_after_burnout [DF]; C26_while_burning [DF]; C26_before_ignition [DF]; C26_unlit_partial [DF]; C26_refuted [DF]; C26_impulse [DF]
* C27: C27_never_below [DFN]; C27_bottom_velocity_partial [DFN]; C27_rotating_refuted [DFN]; C27_released [DFN]; C27_held [DFN]; C27_force_partial [DFN]; C27_refuted [DFN]; C27_backwards_refuted [DFN]; C27_turned_refuted [DFN]
* C28: C28_flat [DF]; C28_flat_decreases [DFN]; C28_sphere [DFN]; C28_oblate_symmetric [DFN]; C28_oblate_limit [DFN]; C28_oblate_potential [CDFN]; C28_oblate_inward [DFN]; C28_body_frame [DFN]
* C29: C29_independent [CDFN]; C29_positive [CDFN]; C29_continuous_partial [CDFN]; C29_hydrostatic [CDFN]; C29_below_refuted [CDFN]; C29_tabulated [DF]
* C30: C30_bounded [DFN]; C30_profile [DFN]; C30_plateau [DFN]; C30_no_jumps [CDFN]; C30_symmetric [DFN]
* C31: C31_answers [-]; C31_function_partial [-]; C31_continuous [-]; C31_back_refuted [-]; C31_two [DFN]; C31_one [DFN]; C31_three_refuted [DFN]
* C32: C32_outputs [DF]; C32_zero_step [DF]; C32_arrays [DF]; C32_schedule_refuted [DF]
* C33: C33_limits_partial [CDFN]; C33_motion [CDFN]; C33_converges [CDFN]; C33_repeat [DFN]; C33_past [DFN]; C33_rest_refuted [DFN]
* C34: C34_step [-]; C34_rate [-]; C34_every_step [-]; C34_tiny_refuted [-]
* C35: C35_table_partial [-]; C35_rectangular_partial [-]; C35_lookup [-]; C35_time_column_refuted [-]; C35_default_refuted [-]
* C36: C36_discard_partial [-]; C36_adaptive_step_partial [-]; C36_reuse_refuted [-]; C36_stages_refuted [-]
* C37: C37_fixed_end [DF]; C37_already_over [DF]; C37_stops [DF]; C37_adaptive_end [-]; C37_event_step [-]; C37_detached_step_refuted [DF]
* C38: C38_unique [-]; C38_fails_late [-]; C38_alone [-]; C38_last_attempt [-]
* C39: C39_schedule [-]; C39_completes [-]; C39_results [-]
* C40: C40_comparison_partial [-]; C40_nan_refuted [-]; C40_exit_partial [-]; C40_missing_refuted [-]; C40_constant_refuted [-]
* C41: C41_refinement [-]
* C42: C42_speeds [DFN]; C42_flight_time [-]; C42_apogee_partial [DF]; C42_apogee_refuted [DF]; C42_landing_partial [DF]; C42_line_partial [DF]; C42_landing_refuted [DF]
* C43: C43_exact_partial [CDFN]; C43_limits [CDFN]; C43_defined [CDFN]; C43_limits_refuted [CDFN]; C43_curve_partial [CDFN]
* C44: C44_checksum [-]; C44_received [-]; C44_component [-]; C44_overflow [-]; C44_sent [-]
* C45: C45_sequence [-]; C45_order [DFN]
* C46: C46_inertia_partial [DF]; C46_overrides [DF]; C46_force [DF]; C46_refuted [DF]
* C47: C47_order [DF]; C47_order_unique [DF]; C47_refuted [D]
* C48: C48_no_leak [-]; C48_mean [-]; C48_values_partial [-]; C48_crash_partial [-]; C48_success [-]; C48_history [-]; C48_crash_refuted [-]; C48_values_refuted [-]
* C49: C49_distance [DFN]; C49_height [CDFN]; C49_round_trip [CDFN]; C49_rebuild [CDFN]; C49_frame [DFN]; C49_vertical [CDFN]
* C50: C50_limited [CDFN]; C50_never [CDFN]; C50_refuted [CDFN]
* C51: C51_reports_partial [-]; C51_refuted [-]
* C52: C52_all_texts_partial [-]; C52_refuted [-]
* C53: C53_increment_partial [CDFN]; C53_refuted [CDFN]
* C54: C54_unit [DFN]; C54_step_splitting [DFN]; C54_negation [DFN]
* C55: C55_axis_angle_partial [CDFN]; C55_recovers_axis_angle [CDFN]; C55_scaling_partial [CDFN]; C55_rotation_vector_partial [CDFN]; C55_refuted [CDFN]
* C56: C56_euler_partial [CDFN]; C56_refuted [CDFN]
* C57: C57_angle_partial [CDFN]; C57_refuted [CDFN]
* C58: C58_fixed_methods [DF]; C58_adaptive_refuted [DF]; C58_builtin_fixed [DF]; C58_refuted [DF]
* C59: C59_relit [DF]; C59_rocket [DF]; C59_first_stage_partial [DF]; C59_refuted [DF]
* C60: C60_newton [DFN]; C60_euler [DFN]; C60_power [DFN]; C60_torque_free [CDFN]; C60_force_free [CDFN]; C60_dof_agree [DFN]
* C61: C61_altitude_ellipsoid [CDFN]; C61_relative [DFN]; C61_altitude [CDFN]; C61_position_refuted [CDFN]; C61_back_partial [CDFN]; C61_spin_refuted [CDFN]; C61_rotation_refuted [CDFN]
* C62: C62_calm [CDFN]; C62_calm_ellipsoid [CDFN]; C62_wind [DFN]
* C63: C63_ellipsoid [CDFN]; C63_flat [DFN]; C63_sphere [CDFN]; C63_ellipsoid_exact [CDFN]
* C64: C64_height [CDFN]; C64_surface [DFN]; C64_converges [CDFN]; C64_wgs84 [CDFN]; C64_centre [CDFN]
* C65: C65_target_partial [CDFN]; C65_vertical [CDFN]; C65_down_refuted [CDFN]; C65_zero [CDFN]; C65_error_partial [CDFN]; C65_short_way_refuted [CDFN]
* C66: C66_written_partial [-]; C66_empty [-]; C66_time_steps_partial [-]; C66_quaternion_refuted [-]; C66_fill_refuted [-]; C66_names_refuted [-]
* C67: C67_logged_partial [-]; C67_RK78_refuted [-]
* C68: C68_base_drag_partial [-]; C68_logging_refuted [-]
* C69: C69_flat_partial [DF]; C69_altitude_refuted [CDFN]; C69_apogee_refuted [CDFN]
* C70: C70_bands [CDFN]; C70_default_band [CDFN]; C70_default_misses [CDFN]
* C71: C71_paced [-]; C71_own_rates [-]; C71_spacing [-]; C71_multiple [-]; C71_rate_refuted [-]
* C72: C72_swarm [-]; C72_scipy [-]; C72_best_text [-]; C72_continue_partial [-]; C72_continue_refuted [-]; C72_nested_refuted [-]
* C73: C73_slices [DFN]; C73_mean_chord [DFN]
* C76: C76_number_refuted [DF]; C76_number_partial [DF]; C76_directions [DFN]
* C74: C74_weathervane [CDFN]; C74_roll_damping [CDFN]; C74_axial_flow [CDFN]; C74_set_weathervane [CDFN]; C74_set_roll_damping [CDFN]; C74_set_axial_flow [CDFN]; C74_three_fins [DFN]
* C75: C75_smooth_partial [CDFN]; C75_on_chord_partial [DFN]; C75_refuted [DFN]; C75_ahead_refuted [DFN]; C75_stubby_refuted [DFN]
* C77: C77_dissipative_partial [CDFN]; C77_axial [CDFN]; C77_dissipative_refuted [CDFN]; C77_tube [CDFN]; C77_nose [CDFN]; C77_stack [CDFN]; C77_ogive_partial [CDFN]
* C78: C78_compressibility [CDFN]; C78_positive [CDFN]; C78_laminar [CDFN]; C78_continuous_refuted [CDFN]
* C79: C79_reported [DFN]; C79_tube [CDFN]; C79_formula [DF]; C79_narrowing [CDFN]; C79_widening_refuted [CDFN]; C79_ogive [CDFN]; C79_cone_refuted [CDFN]
* C80: C80_header [-]; C80_values [D]; C80_order [D]
* C81: C81_tube_power [DF]; C81_tube [DF]; C81_roll [DFN]; C81_tube_total [CDFN]; C81_symmetry_refuted [DF]; C81_jet [DF]; C81_constant [CDFN]
* C82: C82_lift_partial [CDFN]; C82_force_partial [CDFN]; C82_still [CDFN]; C82_lift_refuted [CDFN]
* C83: C83_base [DF]; C83_cone_partial [CDFN]; C83_cone_continuous [CDFN]; C83_sonic_refuted [CDFN]; C83_boat_tail [CDFN]; C83_widening_refuted [CDFN]; C83_transition_partial [CDFN]; C83_transition_refuted [CDFN]
* C84: C84_ogive_partial [CDFN]; C84_cone_refuted [CDFN]; C84_half_series_refuted [CDFN]; C84_transition_partial [CDFN]; C84_transition_refuted [CDFN]
* C85: C85_radius [DF]; C85_covered [DF]; C85_length [CDF]; C85_max_diameter [DF]; C85_joints_partial [DFN]; C85_step_refuted [DF]
* C86: C86_hellman [CDFN]; C86_hellman_continuous [CDFN]; C86_profile [DFN]; C86_heading [DFN]; C86_speeds_partial [DF]; C86_speeds_refuted [DF]; C86_locations [-]
* C87: C87_profiles [-]; C87_months [-]; C87_table [DFN]
* C88: C88_stance [CDFN]; C88_rail [CDFN]; C88_direction_partial [CDFN]; C88_axis [CDFN]; C88_first_step [CDFN]; C88_refuted [CDFN]
* C89: C89_air [DFN]; C89_parachute [DF]; C89_switch [-]; C89_acceleration [DFN]; C89_variables_lost [-]; C89_mass_lost [DF]; C89_refuted [DF]
* C90: C90_linear [DF]; C90_jump [DFN]; C90_angular [DF]; C90_refuted [DFN]
* C91: C91_aligned_partial [-]; C91_mismatch [-]; C91_refuted [D]
* C92: C92_names_partial [-]; C92_drop_partial [-]; C92_refuted [-]; C92_logs [-]
* C93: C93_include_exact_partial [-]; C93_include_wins [-]; C93_include_error [-]; C93_refuted [-]
* C94: C94_create_partial [-]; C94_modifier_defined [-]; C94_refuted [-]; C94_unknown_refuted [-]
* C95: C95_study [CDFN]; C95_needs_change [CDFN]; C95_refuted [CDFN]
* C96: C96_table_partial [CDFN]; C96_mixed_refuted [CDFN]; C96_control_refuted [CDFN]
* C97: C97_choice [DF]; C97_file [-]; C97_refuted [DF]
* C98: C98_one_row_per_point_partial [-]; C98_components_refuted [-]; C98_reference_refuted [-]; C98_level_refuted [-]; C98_no_points [-]
* C99: C99_coefficients [DFN]; C99_still_air [DFN]; C99_drag_partial [DFN]; C99_drag_refuted [DFN]; C99_repeated_refuted [DFN]; C99_intermediate_refuted [DFN]
* C100: C100_loop [CDFN]; C100_zero_rate_refuted [CDFN]; C100_logged_target_refuted [CDFN]; C100_ideal [CDFN]; C100_controlled_partial [-]; C100_upper_stage_refuted [-]; C100_columns [D]; C100_order_refuted [D]; C100_drop_partial [-]; C100_drop_refuted [-]
* C101: C101_recorded [D]; C101_frames_partial [CDFN]; C101_range [DF]; C101_orientation_refuted [CDFN]; C101_given_up_refuted [CDFN]
* C102: C102_columns [-]; C102_cache [-]; C102_stale_refuted [-]; C102_plot_partial [-]; C102_twice_refuted [D]; C102_time_refuted [D]
* C103: C103_cases [-]; C103_overrides [-]; C103_level [-]; C103_isolated [-]; C103_stops_refuted [-]; C103_default_refuted [-]
* C104: C104_range [-]; C104_vectors [-]; C104_list [-]; C104_commas_refuted [-]
* C105: C105_one [DF]; C105_agreement [DF]; C105_sets [DF]; C105_closest_refuted [DF]
* C106: C106_formats [-]; C106_roundtrip [-]; C106_count [-]; C106_unclosed_refuted [-]
* C107: C107_inverse [DF]; C107_sample_partial [DFN]; C107_speeds_refuted [DF]; C107_average [DF]; C107_weights_refuted [DF]; C107_read [DF]
* C108: C108_parabola [DFN]; C108_exact [DFN]; C108_euler [DFN]; C108_completes [DFN]; C108_names [DF]; C108_error [DFN]
* C109: C109_environment [DFN]; C109_refused [DFN]; C109_unchosen [-]; C109_default [DFN]; C109_gust_direction_refuted [DFN]; C109_fraction_refuted [DFN]; C109_controller_refuted [DF]
* C110: C110_components [-]; C110_total [-]; C110_refused [-]; C110_stages [-]; C110_reference [DFN]
* C111: C111_prepared_partial [-]; C111_errors [-]; C111_refuted [DF]
* C112: C112_fixed_mass [DF]; C112_stage_cg [DF]; C112_force_refuted [DF]; C112_moi_refuted [DF]; C112_table [DF]; C112_columns [D]
* C113: C113_length [DF]; C113_fineness [DF]
* C114: C114_positive [CDFN]; C114_sonic [CDFN]; C114_exists_refuted [CDFN]; C114_reference_area [CDFN]; C114_edges [CDFN]; C114_round_trailing [CDFN]; C114_round_leading [CDFN]; C114_edges_read [DF]; C114_continuous_partial [CDFN]; C114_continuous_refuted [CDFN]
* C115: C115_record_partial [-]; C115_record_refuted [-]; C115_trace_refuted [-]; C115_terminal [-]; C115_silent [-]; C115_released_refuted [-]; C115_released_partial [-]; C115_study [-]; C115_sweep_refuted [-]
* C116: C116_parts [DFN]; C116_single_refuted [DFN]; C116_file [DFN]; C116_log [DFN]; C116_mean [DF]; C116_deviation [DFN]; C116_plot_partial [DF]; C116_plot_refuted [DF]
* C117: C117_row [-]; C117_file [-]; C117_any_text [-]; C117_written [-]
* C118: C118_rest [-]; C118_positions [-]; C118_restart [-]; C118_file_partial [-]; C118_overwritten_refuted [-]; C118_lost_refuted [-]; C118_plots_refuted [-]
* C119: C119_expression [DFN]; C119_function [DFN]; C119_crash [DFN]; C119_colon_refuted [DFN]; C119_dependent_partial [-]; C119_repeated_refuted [-]; C119_cases [-]; C119_parallel_partial [-]; C119_nested_refuted [-]; C119_method [-]; C119_bare_refuted [-]; C119_particles_refuted [-]; C119_particles [-]; C119_particles_mixed_refuted [-]
* C120: C120_study_partial [CDFN]; C120_study_sampled [CDFN]; C120_trials [-]; C120_study_refuted [CDFN]; C120_trials_refuted [-]
* C121: C121_fins [DFN]; C121_drawn [DFN]; C121_canards [DFN]; C121_colour_partial [DF]; C121_unpowered_refuted [DFN]; C121_parachute [DFN]; C121_frames [CDFN]; C121_last_refuted [CDFN]; C121_file_refuted [CDFN]; C121_actuators_refuted [DFN]; C121_limits_partial [DF]; C121_limits_refuted [DF]; C121_works_partial [CDFN]
* C122: C122_paths [DF]; C122_paths_refuted [DF]; C122_returned_partial [CDFN]; C122_returned_refuted [CDFN]
* C123: C123_flight [-]; C123_flight_again_partial [-]; C123_nan_refuted [-]; C123_missing_refuted [-]; C123_default_refuted [-]; C123_sweep [-]; C123_sweep_again_partial [-]; C123_smooth_refuted [-]; C123_file_partial [-]; C123_overwritten_refuted [-]
* C124: C124_curves [D]; C124_drawn_partial [D]; C124_no_columns_refuted [D]; C124_scale_refuted [D]; C124_works_refuted [D]; C124_label_refuted [D]; C124_x_drawn_refuted [D]; C124_comparison_partial [D]; C124_comparison_refuted [D]; C124_validated [DF]
* C125: C125_saved_partial [-]; C125_saved_refuted [-]; C125_distinct_refuted [-]; C125_location_partial [-]; C125_location_refuted [-]
* C126: C126_rows [-]; C126_off [-]; C126_order [-]; C126_euler_flat_partial [CDFN]; C126_euler_round_partial [CDFN]; C126_euler_refuted [CDFN]
* C127: C127_tube [DF]; C127_transition [DF]; C127_nose [DFN]; C127_point_refuted [DFN]; C127_fin [DFN]; C127_fins_partial [DFN]; C127_fins_refuted [DFN]; C127_contents_partial [DFN]; C127_masses_refuted [DFN]
* C128: C128_descent [DFN]; C128_whole [CDFN]; C128_fins [CDFN]; C128_nose [CDFN]; C128_transition [CDFN]; C128_tube_partial [CDFN]; C128_tube_refuted [CDFN]; C128_moved [CDFN]; C128_turned [CDFN]; C128_seen [CDFN]; C128_setup_partial [CDFN]; C128_setup_refuted [CDFN]
* C129: C129_descent_partial [DFN]; C129_whole [CDFN]; C129_drift_partial [CDFN]; C129_exact [CDFN]; C129_weights [DF]
* C130: C130_nose [CDFN]; C130_transition [CDFN]; C130_tube [CDFN]; C130_fins [CDFN]; C130_sum [DF]; C130_point [CDFN]; C130_straight [CDFN]; C130_launch [CDFN]; C130_time [CDFN]
* C131: C131_realtime [-]; C131_packets [-]; C131_goes_on [-]; C131_prompt [-]; C131_timeout [-]; C131_late_refuted [-]; C131_cut_refuted [-]; C131_setup [-]
* C132: C132_steering_refuted [-]; C132_realtime_flight [-]
* C133: C133_file [-]; C133_cost_partial [DF]; C133_weights_refuted [DF]; C133_zero [DF]; C133_integral [DFN]; C133_missing [DF]
* C134: C134_shows_partial [CDFN]; C134_single_refuted [CDFN]; C134_given [CDFN]; C134_axes_refuted [CDFN]; C134_unsaved [CDFN]; C134_saved_partial [CDFN]; C134_saved_refuted [CDFN]
* C135: C135_same_partial [DF]; C135_equivalence_partial [DF]; C135_kinds_refuted [DF]; C135_symmetric_refuted [DF]; C135_length_refuted [DF]; C135_transitive_refuted [DF]; C135_three_dof_refuted [DF]; C135_definitions [-]
