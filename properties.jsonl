{"id": "C01", "title": "Hierarchical key queries are exact", "statement": "For a simulation definition whose keys are dot-separated names: `isSubKey(p,k)` is true exactly when p is empty or k is p followed by a dot and anything; `getSubKeys(p)` returns exactly the stored keys lying under p, each once, in insertion order; `getImmediateSubDicts(p)` returns exactly the names d = p.x for which some stored key lies under d, and `getImmediateSubKeys(p)` exactly the stored keys one level below p. Splitting a key at a level and re-joining it gives the key back, and levels add up.", "quantifier": "every key string, every parent string and every dictionary content (any number of keys, any depth)", "why_tests_cant": "the key strings and dictionary contents are unbounded; prefix look-alikes (Rocket vs Rocket2) and deep nestings cannot be enumerated", "anchors": ["MAPLEAF/IO/simDefinition.py::isSubKey", "MAPLEAF/IO/simDefinition.py::getKeyLevel", "MAPLEAF/IO/simDefinition.py::getParentKeyAtLevel", "MAPLEAF/IO/simDefinition.py::getImmediateSubKey", "MAPLEAF/IO/simDefinition.py::splitKeyAtLevel", "MAPLEAF/IO/simDefinition.py::SimDefinition.getSubKeys", "MAPLEAF/IO/simDefinition.py::SimDefinition.getImmediateSubKeys", "MAPLEAF/IO/simDefinition.py::SimDefinition.getImmediateSubDicts"]}
{"id": "C02", "title": "Writing a definition to file and parsing it back is lossless", "statement": "For every definition with well-formed keys and values, writing it with `writeToFile` and parsing the produced file yields a definition with exactly the same key-value pairs (nothing lost, renamed, added or moved to another dictionary).", "quantifier": "every dictionary of well-formed keys/values, of any size and nesting depth", "why_tests_cant": "the set of dictionaries is infinite and the writer is stateful (open/close brackets depend on the sequence of keys), so sampled round trips do not settle all shapes", "anchors": ["MAPLEAF/IO/simDefinition.py::SimDefinition.writeToFile", "MAPLEAF/IO/simDefinition.py::SimDefinition._parseSimDefinitionFile", "MAPLEAF/IO/simDefinition.py::SimDefinition._parseDictionaryContents"]}
{"id": "C03", "title": "Parsing never silently overwrites or drops a key-value pair", "statement": "For every text made of comments, blank lines, nested dictionaries and key-value lines, parsing either fails with an error or returns a dictionary in which each key-value line is represented exactly once under the name of its enclosing dictionaries; two lines that define the same full key always cause an error, whatever their distance and nesting.", "quantifier": "every file text / every tree of nested dictionaries", "why_tests_cant": "unbounded file contents and nesting; duplicate definitions can be arbitrarily far apart", "anchors": ["MAPLEAF/IO/simDefinition.py::SimDefinition._parseDictionaryContents", "MAPLEAF/IO/simDefinition.py::SimDefinition._parseSimDefinitionFile"]}
{"id": "C04", "title": "Loading files that include each other always terminates", "statement": "For every set of definition files with arbitrary include references (cyclic ones too), loading the top file terminates: it either returns a dictionary or raises the circular-reference error; it returns a dictionary only when no file transitively includes itself, and an acyclic set of files is never rejected as circular.", "quantifier": "every finite file system of definition files and every include graph on it", "why_tests_cant": "the include graphs are unbounded and a violation is non-termination, which a test cannot observe", "anchors": ["MAPLEAF/IO/simDefinition.py::SimDefinition._loadSubSimDefinition", "MAPLEAF/IO/simDefinition.py::SimDefinition._parseDictionaryContents", "MAPLEAF/IO/simDefinition.py::SimDefinition.__init__"]}
{"id": "C05", "title": "Value look-up precedence and usage reporting", "statement": "`getValue(k)` (key stripped of white space) returns the explicitly defined value if there is one, otherwise the global default, otherwise the default of the class of the closest enclosing dictionary that declares a class, otherwise raises KeyError; it never changes the stored values. After any sequence of reads, the keys reported as unused are exactly the loaded keys that no successful read touched, and the defaults reported as used are exactly the defaults that were returned.", "quantifier": "every definition, every default table and every sequence of reads of any length", "why_tests_cant": "depends on the whole history of reads and on arbitrary nesting of classes", "anchors": ["MAPLEAF/IO/simDefinition.py::SimDefinition.getValue", "MAPLEAF/IO/simDefinition.py::SimDefinition._getClassBasedDefaultValue", "MAPLEAF/IO/simDefinition.py::SimDefinition._resetUsageTrackers", "MAPLEAF/IO/simDefinition.py::SimDefinition.printUnusedKeys", "MAPLEAF/IO/simDefinition.py::SimDefinition.printDefaultValuesUsed"]}
{"id": "C06", "title": "Relative keys win over absolute keys in sub-dictionary readers", "statement": "A sub-dictionary reader at path P asked for key k returns what the definition returns for P.k when that lookup succeeds, otherwise what it returns for k, otherwise raises KeyError; the try-variants return the supplied default exactly in the KeyError case.", "quantifier": "every definition, path and key", "why_tests_cant": "path collisions depend on arbitrary dictionary contents", "anchors": ["MAPLEAF/IO/subDictReader.py::SubDictReader.getString", "MAPLEAF/IO/subDictReader.py::SubDictReader.tryGetString"]}
{"id": "C07", "title": "Derived dictionaries contain exactly the parent's entries under the new name", "statement": "`!create N from P` gives the new dictionary exactly one entry N.s = v for each entry P.s = v of the parent, leaves every previously defined entry unchanged, and never overwrites an existing key silently.", "quantifier": "every dictionary content, parent path and new name", "why_tests_cant": "renaming is textual; whether it touches other parts of the key depends on arbitrary names", "anchors": ["MAPLEAF/IO/simDefinition.py::SimDefinition._parseDerivedDictionary"]}
{"id": "C08", "title": "Monte Carlo sampling touches only the probabilistic keys and never drifts", "statement": "Resampling any number of times changes only keys K that have a K_stdDev entry (and adds K_mean), the mean used for every sample is the originally specified value, so the n-th sample of K is mean + stdDev * (n-th draw assigned to K); with sampling disabled nothing changes at all.", "quantifier": "every definition, every random stream and every number of resamplings", "why_tests_cant": "drift appears only over an unbounded number of resamplings and depends on the random stream", "anchors": ["MAPLEAF/IO/simDefinition.py::SimDefinition.resampleProbabilisticValues"]}
{"id": "C09", "title": "Caching of the last result is transparent", "statement": "A function wrapped by the last-result cache returns, for every sequence of calls, exactly what the unwrapped function would return for the same arguments, provided the function is pure and its results are not modified by the callers.", "quantifier": "every call history of any length and every pure function", "why_tests_cant": "depends on the complete interleaving of argument values over an unbounded history", "anchors": ["MAPLEAF/Utilities.py::cacheLastResult"]}
{"id": "C10", "title": "Aerodynamic angle queries do not influence each other", "statement": "`getAOA`, `getAOSS`, `getTotalAOA` and `getLocalFrameAirVel` return values that depend only on the state and environment passed in, whatever queries were made before with the same state and environment.", "quantifier": "every history of queries, every state and environment", "why_tests_cant": "the failure depends on the order of previous calls sharing one cached vector", "anchors": ["MAPLEAF/Motion/AeroParameters.py::AeroParameters.getLocalFrameAirVel", "MAPLEAF/Motion/AeroParameters.py::AeroParameters.getAOA", "MAPLEAF/Motion/AeroParameters.py::AeroParameters.getAOSS"]}
{"id": "C11", "title": "Quaternion rotation is a rigid rotation", "statement": "For every non-zero quaternion, rotating vectors preserves lengths, dot products and cross products; rotating by a product of unit quaternions is rotating by the factors in turn; rotating by q and then by its conjugate (or inverse) is the identity; a quaternion and its negation give the same rotation; an axis-angle quaternion leaves the axis fixed and implements Rodrigues' formula.", "quantifier": "every quaternion and every vector over the reals", "why_tests_cant": "continuum of inputs", "anchors": ["MAPLEAF/Motion/CythonQuaternion.pyx::Quaternion.rotate", "MAPLEAF/Motion/CythonQuaternion.pyx::Quaternion.__mul__", "MAPLEAF/Motion/CythonQuaternion.pyx::Quaternion.conjugate", "MAPLEAF/Motion/CythonQuaternion.pyx::Quaternion.inverse", "MAPLEAF/Motion/CythonQuaternion.pyx::Quaternion.__init__"]}
{"id": "C12", "title": "Vector algebra laws", "statement": "Vectors form a real vector space under the provided operators; the cross product is anti-symmetric and orthogonal to its factors with the Lagrange identity; normalising gives a unit vector (or the zero vector for zero) parallel to the argument; indexing and iteration return the three components.", "quantifier": "every vector and scalar over the reals", "why_tests_cant": "continuum of inputs", "anchors": ["MAPLEAF/Motion/CythonVector.pyx::Vector"]}
{"id": "C13", "title": "Moving a force-moment system to another point preserves its mechanical effect", "statement": "Transferring a force-moment system from A to B to C equals transferring it from A to C directly; transferring there and back is the identity; adding systems defined at different points and then transferring equals transferring each and adding; the resultant force is unchanged.", "quantifier": "every finite collection of forces/moments and application points", "why_tests_cant": "continuum of inputs and unbounded number of systems", "anchors": ["MAPLEAF/Motion/forceMomentSystem.py::ForceMomentSystem.getAt", "MAPLEAF/Motion/forceMomentSystem.py::ForceMomentSystem.__add__"]}
{"id": "C14", "title": "Combining inertias conserves mass and first and second moments", "statement": "Combining any list of rigid bodies (by + or combineInertias) yields the sum of the masses, the mass-weighted centre of gravity, and the moments of inertia given by the parallel axis theorem; the outcome does not depend on order or grouping.", "quantifier": "every finite list of inertias, including equal ones and massless ones", "why_tests_cant": "unbounded lists; the failing inputs are value coincidences between components", "anchors": ["MAPLEAF/Motion/inertia.py::Inertia.combineInertias", "MAPLEAF/Motion/inertia.py::Inertia.combineInertiasAboutPoint", "MAPLEAF/Motion/inertia.py::Inertia.__add__", "MAPLEAF/Motion/inertia.py::Inertia.__eq__"]}
{"id": "C15", "title": "Linear table interpolation", "statement": "For every strictly increasing table, linear interpolation returns the tabulated value at each node, lies between the two neighbouring values inside each interval, is clamped to the end values outside, is monotone where the table is, and the weight-based variant reconstructs the same values with weights in [0,1] summing to one.", "quantifier": "every table of any length and every query point", "why_tests_cant": "unbounded tables and continuum of query points; boundary cases of the bisection", "anchors": ["MAPLEAF/Motion/Interpolation.py::linInterp", "MAPLEAF/Motion/Interpolation.py::linInterpWeights"]}
{"id": "C16", "title": "Cubic interpolation matches end values and slopes", "statement": "The cubic interpolation polynomial built from two points with slopes takes the given values and slopes at both ends and reproduces every cubic polynomial exactly.", "quantifier": "every pair of distinct abscissae, all values and slopes", "why_tests_cant": "continuum of inputs", "anchors": ["MAPLEAF/Motion/Interpolation.py::calculateCubicInterpCoefficients", "MAPLEAF/Motion/Interpolation.py::cubicInterp", "MAPLEAF/Motion/Interpolation.py::getInvAMatrix"]}
{"id": "C17", "title": "Fixed-step integrators have their advertised order", "statement": "Every built-in Butcher tableau is consistent; each fixed-step method integrates y' = p(t) exactly (up to the 1e-16 zero-replacement) for polynomials up to its order minus one, advances time by exactly dt, and for linear problems reproduces the Taylor polynomial of its order.", "quantifier": "every derivative function in the stated class, initial value, time and step size", "why_tests_cant": "continuum of step sizes and right-hand sides", "anchors": ["MAPLEAF/Motion/Integration.py::checkButcherTableau", "MAPLEAF/Motion/Integration.py::ClassicalIntegrator"]}
{"id": "C18", "title": "Adaptive stepping terminates with an acceptable or minimal step", "statement": "For every right-hand side and requested step, one adaptive step terminates; the step actually taken is at least the minimum step and at most max(requested, minimum); on return either the estimated error is within 20 times the target or the step is the minimum step; the discard callback is called exactly once per rejected attempt.", "quantifier": "every derivative function, requested step, target error and minimum step", "why_tests_cant": "the number of rejections is unbounded and the right-hand side arbitrary", "anchors": ["MAPLEAF/Motion/Integration.py::AdaptiveIntegrator.__call__"]}
{"id": "C19", "title": "Suggested next step respects the limiters", "statement": "The step proposed for the next iteration (step taken times adaptation factor) lies between the minimum and maximum time step, and the factor lies between the minimum and maximum factors.", "quantifier": "every error estimate, step and limiter setting", "why_tests_cant": "continuum of inputs; interaction of two limiters and the safety factor", "anchors": ["MAPLEAF/Motion/Integration.py::AdaptiveIntegrator._limitAdaptationFactor", "MAPLEAF/Motion/Integration.py::AdaptiveIntegrator._getTimeStepAdjustmentFactor_Elementary"]}
{"id": "C20", "title": "Re-using the last derivative is invisible", "statement": "For first-same-as-last methods, the sequence of states produced with derivative re-use equals the one produced by evaluating the derivative anew at each step.", "quantifier": "every sequence of steps, rejections, and state changes between steps", "why_tests_cant": "depends on the interleaving of integration steps with external state modifications", "anchors": ["MAPLEAF/Motion/Integration.py::AdaptiveIntegrator.__call__", "MAPLEAF/Motion/Integration.py::AdaptiveIntegrator._integrate"]}
{"id": "C21", "title": "Composite state arithmetic is element-wise", "statement": "Sums, scalings and norms of composite states act on each named variable independently and keep the association between names and values; reading a variable by name after any sequence of additions of variables and arithmetic returns that variable.", "quantifier": "every number of extra state variables and every sequence of operations", "why_tests_cant": "unbounded number of variables and histories, shared name tables", "anchors": ["MAPLEAF/Motion/RigidBodyStates.py::StateList"]}
{"id": "C22", "title": "Interpolated rigid-body states reproduce their end points", "statement": "Interpolating between two states with weight 1 for the first returns the first state, with weight 0 the second, in all of position, velocity, orientation and angular velocity.", "quantifier": "every pair of states", "why_tests_cant": "continuum of inputs", "anchors": ["MAPLEAF/Motion/RigidBodyStates.py::interpolateRigidBodyStates"]}
{"id": "C23", "title": "Each subscribed event fires at most once and in time", "statement": "For every history of time steps, a subscribed event's callback runs at most once; it runs at the first check at which its condition holds (plus its delay), never before; events whose condition never holds never fire; unsubscribed events stay untouched.", "quantifier": "every set of subscriptions and every trajectory history", "why_tests_cant": "unbounded histories and numbers of events; removal during iteration", "anchors": ["MAPLEAF/Rocket/simEventDetector.py::SimEventDetector.triggerEvents", "MAPLEAF/Rocket/simEventDetector.py::SimEventDetector.subscribeToEvent"]}
{"id": "C24", "title": "Stage separation sequence", "statement": "After the n-th separation the rocket consists of its top stages only, the dropped stage is the lowest one, and the motor ignited by a separation is that of the stage that has just become the lowest one.", "quantifier": "every number of stages and every number of separations", "why_tests_cant": "unbounded number of stages; defects appear only from three stages on", "anchors": ["MAPLEAF/Rocket/rocket.py::Rocket._stageSeparation", "MAPLEAF/Rocket/rocket.py::Rocket._dropStage", "MAPLEAF/Rocket/rocket.py::Rocket._initializeStagingTriggers"]}
{"id": "C25", "title": "Propellant mass balance of tabulated motors", "statement": "For every motor table with non-negative flow rates, propellant mass is never negative, never increases with time since ignition, equals the integral of the flow rates over the remaining burn at every table node, equals the initial mass until ignition and zero after burnout.", "quantifier": "every motor table and all times", "why_tests_cant": "unbounded tables, continuum of times", "anchors": ["MAPLEAF/Rocket/Propulsion.py::TabulatedMotor._parseMotorDefinitionFile", "MAPLEAF/Rocket/Propulsion.py::TabulatedMotor._getOxInertia", "MAPLEAF/Rocket/Propulsion.py::TabulatedMotor._getFuelInertia"]}
{"id": "C26", "title": "A motor produces thrust only while burning", "statement": "Thrust is zero before the ignition time and after the end of the thrust table, and equals the interpolated table in between; scaling impulse and burn time by the adjustment factors scales the total impulse by the impulse factor only.", "quantifier": "every motor table, ignition time and time", "why_tests_cant": "continuum of times and tables", "anchors": ["MAPLEAF/Rocket/Propulsion.py::TabulatedMotor.getAppliedForce", "MAPLEAF/Rocket/Propulsion.py::TabulatedMotor.getTotalImpulse"]}
{"id": "C27", "title": "Launch rail constrains motion to the rail", "statement": "While the rocket is on the rail it never moves below its starting point, and the applied force accelerates it only along the rail direction and never backwards; once it has left the rail no constraint is applied ever again.", "quantifier": "every state history and every rail direction, including inclined rails", "why_tests_cant": "continuum of orientations and unbounded histories", "anchors": ["MAPLEAF/ENV/launchRail.py::LaunchRail", "MAPLEAF/ENV/environment.py::Environment.applyLaunchRailMotionConstraints", "MAPLEAF/ENV/environment.py::Environment.applyLaunchTowerForce"]}
{"id": "C28", "title": "Gravity", "statement": "On the flat earth gravity always points straight down and decreases with height; on the spherical earth it points to the earth's centre with magnitude GM m / r^2; on the oblate earth it is axially symmetric and mirror symmetric about the equator and reduces to the spherical law when J2 is zero; the force handed to the rocket has the same magnitude in the body frame.", "quantifier": "every position, mass and orientation", "why_tests_cant": "continuum of inputs", "anchors": ["MAPLEAF/ENV/EarthModelling.py::FlatEarth.getGravityForce", "MAPLEAF/ENV/EarthModelling.py::SphericalEarth.getGravityForce", "MAPLEAF/ENV/EarthModelling.py::WGS84.getGravityForce", "MAPLEAF/ENV/environment.py::Environment.getGravityForce"]}
{"id": "C29", "title": "Standard atmosphere is continuous, positive and independent of how many models exist", "statement": "The standard-atmosphere model returns positive temperature and pressure, temperature and pressure are continuous across layer boundaries, density obeys the ideal gas law below 86 km, and creating further model objects never changes the results of existing ones.", "quantifier": "every altitude and every number of model objects", "why_tests_cant": "continuum of altitudes; cross-instance interference depends on the creation history", "anchors": ["MAPLEAF/ENV/AtmosphereModelling.py::USStandardAtmosphere"]}
{"id": "C30", "title": "Gust profile is bounded, continuous and local", "statement": "The sine gust speed always lies between 0 and the specified magnitude and is zero outside the gust layer; with a positive blend distance and a non-negative thickness it equals the magnitude on the plateau and has no jumps anywhere, in particular not at the four zone boundaries.", "quantifier": "every altitude and all gust parameters", "why_tests_cant": "continuum of inputs", "anchors": ["MAPLEAF/ENV/TurbulenceModelling.py::CustomSineGust"]}
{"id": "C31", "title": "Pink-noise turbulence is a function of time for a given seed", "statement": "For a given random stream the turbulence value returned for a time depends only on that time, not on which other times were queried before; the three components of 3-D turbulence come from three independent generators.", "quantifier": "every query history and random stream", "why_tests_cant": "depends on the full query history", "anchors": ["MAPLEAF/ENV/TurbulenceModelling.py::PinkNoiseGenerator.getValue", "MAPLEAF/ENV/TurbulenceModelling.py::PinkNoise3D"]}
{"id": "C32", "title": "PID integral never exceeds its limit", "statement": "After any sequence of updates the integral contribution of the PID controller stays within the configured limit, and the output equals P e + I * (clamped integral) + D * (difference quotient).", "quantifier": "every sequence of errors and time steps", "why_tests_cant": "unbounded histories", "anchors": ["MAPLEAF/GNC/PID.py::PIDController"]}
{"id": "C33", "title": "Actuators stay inside their deflection limits and do not overshoot", "statement": "A first-order actuator's deflection stays within its limits for every sequence of commanded targets and query times, always lies between its deflection at the last command and its (limited) target, and is continuous across commands.", "quantifier": "every command history and query time", "why_tests_cant": "unbounded histories, continuum of times", "anchors": ["MAPLEAF/GNC/Actuators.py::FirstOrderActuator"]}
{"id": "C34", "title": "Control loop runs at its update rate", "statement": "With a positive update rate the adjusted simulation step divides the control period into a whole number of steps, and the control loop runs at exactly every such multiple and at no other step; with rate zero it runs at every step.", "quantifier": "every update rate, original time step and number of steps", "why_tests_cant": "unbounded number of steps, continuum of rates", "anchors": ["MAPLEAF/GNC/ControlSystems.py::RocketControlSystem._checkSimTimeStepping", "MAPLEAF/GNC/ControlSystems.py::RocketControlSystem.runControlLoopIfRequired"]}
{"id": "C35", "title": "Logs stay rectangular and chronological", "statement": "After any sequence of row insertions, column insertions, value logs and row deletions, completing the log yields columns that all have the same length as the time column, times never decrease, and every logged value is found in the row in which it was logged.", "quantifier": "every sequence of log operations", "why_tests_cant": "unbounded operation sequences", "anchors": ["MAPLEAF/IO/CythonLog.pyx::Log"]}
{"id": "C36", "title": "Discarding a rejected time step removes exactly that step's log rows", "statement": "After a rejected adaptive attempt, discarding its rows leaves the derivative-evaluation log exactly as it was before the attempt.", "quantifier": "every integrator method and every history of accepted and rejected attempts", "why_tests_cant": "depends on the history (first-same-as-last re-use changes the number of evaluations) and on which rockets are simulated", "anchors": ["MAPLEAF/SimulationRunners/SingleSimulations.py::Simulation.discardForceLogsForPreviousTimeStep", "MAPLEAF/Motion/Integration.py::AdaptiveIntegrator._integrate", "MAPLEAF/IO/CythonLog.pyx::Log.deleteLastRow"]}
{"id": "C37", "title": "Simulations ending at a time end exactly there", "statement": "With a fixed-step method and end condition Time = T, the run terminates and the final time is T + 1e-14 (or the initial time when T is already over), no step goes beyond it, and the number of steps is the smallest possible; no other termination condition lets the run continue after it holds.", "quantifier": "every positive time step, initial time and end time", "why_tests_cant": "continuum of values and unbounded number of steps", "anchors": ["MAPLEAF/SimulationRunners/SingleSimulations.py::Simulation.run", "MAPLEAF/SimulationRunners/SingleSimulations.py::Simulation._getEndDetectorFunction"]}
{"id": "C38", "title": "Concurrent runs never share a results folder", "statement": "However many simulations finish concurrently, each one that gets a results folder gets one nobody else got; a simulation fails to get one only after repeated collisions.", "quantifier": "every number of processes and every interleaving of their file-system steps", "why_tests_cant": "all interleavings of concurrent processes", "anchors": ["MAPLEAF/SimulationRunners/SingleSimulations.py::Simulation._logSimulationResults", "MAPLEAF/IO/Logging.py::findNextAvailableNumberedFileName"]}
{"id": "C39", "title": "Parallel Monte Carlo runs produce the same results as serial runs", "statement": "For every completion order, the parallel Monte Carlo runner starts each requested run exactly once, never has more than the allowed number running, and post-processes each result exactly once; the multiset of results does not depend on the schedule.", "quantifier": "every number of runs, worker count and completion schedule", "why_tests_cant": "all schedules of concurrent workers", "anchors": ["MAPLEAF/SimulationRunners/MonteCarlo.py::runMonteCarloSimulation", "MAPLEAF/SimulationRunners/MonteCarlo.py"]}
{"id": "C40", "title": "Regression verdicts", "statement": "A batch comparison reports failure exactly when the relative error exceeds the relative tolerance and the absolute error exceeds the absolute tolerance for some expected value (or the case crashes or results are missing), and the batch's exit status is success exactly when no case failed.", "quantifier": "every list of cases, expected and actual values and tolerances", "why_tests_cant": "unbounded lists, continuum of values", "anchors": ["MAPLEAF/SimulationRunners/Batch.py::_checkResult", "MAPLEAF/SimulationRunners/Batch.py::_checkSimResults", "MAPLEAF/SimulationRunners/Batch.py::BatchRun.printResult"]}
{"id": "C41", "title": "Parameter-sweep refinement", "statement": "Refining a sweep keeps the original values at every tenth position, fills the gaps with equally spaced points, and keeps all parameters' lists the same length.", "quantifier": "every sweep of any length", "why_tests_cant": "unbounded lists with in-place insertion while iterating", "anchors": ["MAPLEAF/SimulationRunners/SingleSimulations.py::WindTunnelSimulation._addPoints"]}
{"id": "C42", "title": "Flight summary values", "statement": "Apogee, maximum speed and maximum horizontal speed are the maxima over the recorded states; the landing location lies on the ground plane on the line through the last two recorded positions.", "quantifier": "every recorded flight of any length", "why_tests_cant": "unbounded lists, continuum of values", "anchors": ["MAPLEAF/IO/rocketFlight.py::RocketFlight"]}
{"id": "C43", "title": "Grid-convergence estimates", "statement": "Richardson extrapolation returns the exact limit for every geometrically converging triple, the observed order is recovered exactly and always lies within its limits.", "quantifier": "every converging triple of values and refinement ratio", "why_tests_cant": "continuum of inputs", "anchors": ["MAPLEAF/IO/gridConvergenceFunctions.py::orderOfConvergence", "MAPLEAF/IO/gridConvergenceFunctions.py::richardsonExtrap"]}
{"id": "C44", "title": "Hardware-in-the-loop packets are self-consistent", "statement": "Every packet produced carries a checksum equal to the sum of all preceding bytes, its type byte announces the number of 4-byte data batches it contains, and quaternion components in [-1,1] are encoded without overflow and decoded to within one quantum.", "quantifier": "every payload and every quaternion", "why_tests_cant": "unbounded payloads, continuum of values", "anchors": ["MAPLEAF/IO/HIL.py"]}
{"id": "C45", "title": "Recovery deployment sequence", "statement": "Recovery stages deploy in order, each at most once, only after the previous one, and the drag area in use is always that of the last deployed stage.", "quantifier": "every number of recovery stages and every event history", "why_tests_cant": "unbounded numbers of stages and histories", "anchors": ["MAPLEAF/Rocket/Recovery.py::RecoverySystem"]}
{"id": "C46", "title": "Composite inertia and force are sums over all components", "statement": "The inertia of a rocket is that of all its components combined, no matter which are classified as fixed-mass and cached; the applied force is the sum of all component forces transferred to the centre of gravity; after dropping or adding components and recomputing, the cached part is again exact.", "quantifier": "every list of components and sequence of changes", "why_tests_cant": "unbounded component lists and histories", "anchors": ["MAPLEAF/Rocket/CompositeObject.py::CompositeObject"]}
{"id": "C47", "title": "Component ordering", "statement": "Sorting components by position returns a permutation of them ordered from nose to tail, keeping the order of components at equal positions; interfaces connect exactly the adjacent body components.", "quantifier": "every list of components", "why_tests_cant": "unbounded lists", "anchors": ["MAPLEAF/Rocket/RocketComponents.py::PlanarInterface.sortByZLocation", "MAPLEAF/Rocket/RocketComponents.py::PlanarInterface.createPlanarComponentInterfaces"]}
{"id": "C48", "title": "Optimization never rewards crashing and evaluates variables independently", "statement": "When a trial simulation crashes the optimizer is told a cost no better than the worst one seen so far; independent variables are written back exactly, dependent variables are evaluated from the current independent values, and one trial's values never leak into another trial.", "quantifier": "every history of trials and costs", "why_tests_cant": "unbounded histories of trials", "anchors": ["MAPLEAF/SimulationRunners/Optimization.py"]}
{"id": "C49", "title": "Geodetic and Cartesian coordinates are consistent", "statement": "On the spherical earth converting latitude/longitude/height to Cartesian coordinates gives a point at distance radius+height from the centre, converting back returns the original height (and direction), and the altitude reported equals the height put in; the vertical of the local frame at any point is the outward normal there.", "quantifier": "every latitude, longitude, height above the centre", "why_tests_cant": "continuum of inputs", "anchors": ["MAPLEAF/ENV/EarthModelling.py::SphericalEarth"]}
{"id": "C50", "title": "Fin angle of attack is limited by stall", "statement": "The local angle of attack used for fin forces never exceeds the stall angle in magnitude and keeps the sign of the geometric angle.", "quantifier": "every fin angle, flow velocity and stall angle", "why_tests_cant": "continuum of inputs", "anchors": ["MAPLEAF/Rocket/CythonFinFunctions.pyx"]}
{"id": "C51", "title": "Usage reports can always be printed", "statement": "After any sequence of look-ups, assignments and removals on a definition, printing the unused keys and the used defaults succeeds and lists exactly the tracked keys with their current values.", "quantifier": "every definition and every history of operations", "why_tests_cant": "unbounded histories mixing reads, writes and removals", "anchors": ["MAPLEAF/IO/simDefinition.py::SimDefinition.printUnusedKeys", "MAPLEAF/IO/simDefinition.py::SimDefinition.removeKey"]}
{"id": "C52", "title": "Searching keys by text", "statement": "`findKeysContaining(list)` returns exactly the stored keys that contain any of the given texts (as its documentation says), in storage order, and None when there is none.", "quantifier": "every definition and every list of texts", "why_tests_cant": "unbounded dictionaries and search lists", "anchors": ["MAPLEAF/IO/simDefinition.py::SimDefinition.findKeysContaining"]}
{"id": "C53", "title": "Spherical interpolation reaches its end points", "statement": "`q1.slerp(q2, f)` is the orientation of q1 for f = 0 and of q2 for f = 1 (as documented), turning at constant rate in between along the shorter way.", "quantifier": "every pair of non-zero quaternions and every fraction between 0 and 1", "why_tests_cant": "continuum of inputs, with a case split on the half space of the two quaternions", "anchors": ["MAPLEAF/Motion/CythonQuaternion.pyx::Quaternion.slerp"]}
{"id": "C54", "title": "Orientations stay proper rotations under integration", "statement": "After adding any number of state increments the orientation has norm one and is the composition of the initial rotation and the increments in order; integrating constant rates gives the same state however the time span is divided into steps.", "quantifier": "every initial state, every finite sequence of increments, every division into time steps", "why_tests_cant": "unbounded number of steps, continuum of states", "anchors": ["MAPLEAF/Motion/RigidBodyStates.py::RigidBodyState.__add__", "MAPLEAF/Motion/RigidBodyStates.py::RigidBodyStateDerivative.__mul__", "MAPLEAF/Motion/CythonAngularVelocity.pyx::AngularVelocity.toQuaternion"]}
{"id": "C55", "title": "Axis, angle and rotation vector describe the quaternion", "statement": "For every non-zero quaternion, the reported axis and angle (and the rotation vector) rebuild the same rotation, an axis and angle below one turn are recovered exactly, and scaling the rotation by s and by t composes to scaling by s + t, with 1 giving the rotation itself and 0 no rotation.", "quantifier": "every non-zero quaternion and all scale factors", "why_tests_cant": "continuum of inputs including both representations of the identity", "anchors": ["MAPLEAF/Motion/CythonQuaternion.pyx::Quaternion.rotationAxis", "MAPLEAF/Motion/CythonQuaternion.pyx::Quaternion.rotationAngle", "MAPLEAF/Motion/CythonQuaternion.pyx::Quaternion.scaleRotation", "MAPLEAF/Motion/CythonQuaternion.pyx::Quaternion.toRotationVector"]}
{"id": "C56", "title": "Euler angles describe the orientation", "statement": "For every unit quaternion, turning by the reported Tait-Bryan angles about x, then y, then z gives the rotation of the quaternion.", "quantifier": "every unit quaternion", "why_tests_cant": "continuum of inputs; the failing ones have measure zero", "anchors": ["MAPLEAF/Motion/CythonQuaternion.pyx::Quaternion.toEulerAngles"]}
{"id": "C57", "title": "Angle between vectors", "statement": "`a.angle(b)` is symmetric, lies between 0 and pi and satisfies |a||b|cos(angle) = a.b for all non-zero vectors; a zero vector raises an error.", "quantifier": "every pair of vectors", "why_tests_cant": "continuum of inputs", "anchors": ["MAPLEAF/Motion/CythonVector.pyx::Vector.angle"]}
{"id": "C58", "title": "Composite states are integrated variable by variable", "statement": "Integrating a rocket with additional state variables (tank levels, actuator positions) advances every variable as the chosen Runge-Kutta method prescribes for the whole system, for fixed-step and adaptive methods alike.", "quantifier": "every number of variables, every derivative function, state, time and step", "why_tests_cant": "unbounded number of variables and arbitrary derivative functions", "anchors": ["MAPLEAF/Motion/RigidBodyStates.py::StateList", "MAPLEAF/Motion/Integration.py::AdaptiveIntegrator._integrate", "MAPLEAF/Motion/RigidBodies.py::StatefulRigidBody"]}
{"id": "C59", "title": "A stage's engine shut-off time is the end of its burn", "statement": "The engine shut-off time a stage reports (and on which burnout-triggered staging relies) is the time after which its motor produces no thrust, for every ignition time and every burn-time adjustment factor.", "quantifier": "every motor table, ignition time and adjustment factor", "why_tests_cant": "continuum of factors and tables", "anchors": ["MAPLEAF/Rocket/Propulsion.py::TabulatedMotor._parseMotorDefinitionFile", "MAPLEAF/Rocket/Propulsion.py::TabulatedMotor.updateIgnitionTime"]}
{"id": "C60", "title": "Rigid-body equations of motion", "statement": "The state derivative satisfies Newton's and Euler's equations for the applied force and moment (mass times acceleration is the force turned into the inertial frame; the change of angular momentum in the body frame is the moment); without moment the rotational kinetic energy and the magnitude of the angular momentum stay constant along every exact solution, and without force the velocity does; 3-DoF and 6-DoF agree on translation.", "quantifier": "every state, force, moment, mass and inertia, every trajectory", "why_tests_cant": "continuum of states and trajectories", "anchors": ["MAPLEAF/Motion/RigidBodies.py::RigidBody.getRigidBodyStateDerivative", "MAPLEAF/Motion/RigidBodies.py::RigidBody_3DoF.getRigidBodyStateDerivative"]}
{"id": "C61", "title": "Launch-frame states are converted faithfully", "statement": "Converting the initial state from the launch tower frame keeps, relative to the moving ground, position, speed, orientation and spin, and converting the state back to the local east-north-up frame returns the state that was put in.", "quantifier": "every initial state, launch site and earth model", "why_tests_cant": "continuum of states and launch sites", "anchors": ["MAPLEAF/ENV/EarthModelling.py::SphericalEarth.convertIntoGlobalFrame", "MAPLEAF/ENV/environment.py::Environment.convertInitialStateToGlobalFrame", "MAPLEAF/ENV/environment.py::Environment.convertStateToENUFrame"]}
{"id": "C62", "title": "Calm air moves with the ground", "statement": "A vehicle standing still relative to a rotating earth in calm air sees no wind: the wind returned by the environment equals the velocity of the rotating earth at that position; any mean wind is added in the local east-north-up directions with unchanged strength.", "quantifier": "every position, rotation rate and wind", "why_tests_cant": "continuum of positions, composition of three frames", "anchors": ["MAPLEAF/ENV/environment.py::Environment.getAirProperties", "MAPLEAF/ENV/EarthModelling.py::SphericalEarth.getInertialToENUFrameRotation"]}
{"id": "C63", "title": "Vertical speed used for event detection is the rate of climb", "statement": "The vertical velocity on which apogee and altitude events are based is the time derivative of the altitude along every trajectory, on the WGS84 ellipsoid to within 1.1e-10 of the speed.", "quantifier": "every differentiable trajectory off the earth's centre, every earth model", "why_tests_cant": "continuum of trajectories", "anchors": ["MAPLEAF/ENV/environment.py::Environment.convertStateToENUFrame", "MAPLEAF/Rocket/simEventDetector.py::SimEventDetector.triggerEvents"]}
{"id": "C64", "title": "Ellipsoidal coordinates", "statement": "On the WGS84 earth, height zero is the ellipsoid, height is measured along its normal (which is the vertical of the local frame), converting any position that is not near the earth's centre to latitude, longitude and height terminates, and converting back returns the position to within 1.5e-8 of its distance from the centre; the height found is exact to within 3.1e-8 of that distance.", "quantifier": "every latitude, longitude and height; every position at least 43 km from the centre", "why_tests_cant": "unbounded iteration, continuum of positions", "anchors": ["MAPLEAF/ENV/EarthModelling.py::WGS84.geodeticToCartesian", "MAPLEAF/ENV/EarthModelling.py::WGS84.cartesianToGeodetic"]}
{"id": "C65", "title": "Stabilizer target and angular error", "statement": "The target orientation of the stabilising autopilot turns the rocket's long axis into the desired flight direction, and the angular error handed to the controllers is the rotation in the rocket's frame that brings it to the target orientation, by the shorter way round.", "quantifier": "every non-zero desired direction; every pair of current and target orientations", "why_tests_cant": "continuum of directions and orientations with singular directions (up, down)", "anchors": ["MAPLEAF/GNC/Navigation.py::Stabilizer", "MAPLEAF/GNC/MomentControllers.py::ScheduledGainPIDRocketMomentController._getOrientationError"]}
{"id": "C66", "title": "Written logs", "statement": "The file written from a log starts with the time column followed by the other columns in alphabetical order, with every component of vectors and quaternions in a column of its own, and has exactly one line per logged row carrying that row's values; a time step log also carries the time from each row to the next; nothing is written for an empty log.", "quantifier": "every sequence of row and column insertions, value logs and row deletions", "why_tests_cant": "unbounded histories of log operations, arbitrary column names and value types", "anchors": ["MAPLEAF/IO/CythonLog.pyx::Log.writeToCSV", "MAPLEAF/IO/CythonLog.pyx::Log.expandIterableColumns", "MAPLEAF/IO/CythonLog.pyx::TimeStepLog"]}
{"id": "C67", "title": "Logging derivative evaluations never aborts a run", "statement": "With every integration method and every sequence of time steps, the derivative evaluations of consecutive accepted steps are made at non-decreasing times, so that recording one log row per evaluation never raises.", "quantifier": "every integration method offered, every sequence of step sizes", "why_tests_cant": "unbounded sequences of steps; only some tableaus are unsorted", "anchors": ["MAPLEAF/Motion/Integration.py", "MAPLEAF/Rocket/rocket.py::Rocket._getAppliedForce", "MAPLEAF/IO/CythonLog.pyx::Log.newLogRow"]}
{"id": "C68", "title": "Base drag is accounted for throughout the flight", "statement": "With automatic boat tails switched on, the lowest body component of the rocket is a boat tail after assembly and after every stage separation, the stages above are left alone, and adding it never makes the flight fail.", "quantifier": "every number of stages and arrangement of body components, any number of separations, any logging level", "why_tests_cant": "unbounded numbers of stages and separations", "anchors": ["MAPLEAF/Rocket/rocket.py::Rocket._ensureBaseDragIsAccountedFor", "MAPLEAF/Rocket/rocket.py::Rocket._stageSeparation", "MAPLEAF/Rocket/RocketComponentFactory.py::initializeForceLogging"]}
{"id": "C69", "title": "Altitude and apogee end conditions", "statement": "A run that is to end at an altitude ends at the first recorded state that has reached that altitude from the side on which it started, and a run that is to end at apogee ends at the first recorded state after one second that is not climbing, whatever the earth model.", "quantifier": "every earth model, start state, trajectory and step size", "why_tests_cant": "continuum of trajectories and launch sites", "anchors": ["MAPLEAF/SimulationRunners/SingleSimulations.py::Simulation._getEndDetectorFunction"]}
{"id": "C70", "title": "Error estimates and uncertainty bands of grid convergence", "statement": "For values converging geometrically, the error estimate made with the observed order equals the distance of the finest value from the limit, so the uncertainty bands of the estimators using the observed order contain the limit; the band of the default estimator, which uses the formal order, contains it exactly if the refinement factor raised to the formal order, less one, is at most three times that raised to the true order, less one.", "quantifier": "every converging triple, refinement ratio, order and formal order", "why_tests_cant": "continuum of inputs", "anchors": ["MAPLEAF/IO/gridConvergenceFunctions.py::errorEstimate", "MAPLEAF/IO/gridConvergenceFunctions.py::uncertainty_FS", "MAPLEAF/IO/gridConvergenceFunctions.py::uncertainty_GCI2g"]}
{"id": "C71", "title": "Hardware-in-the-loop packets keep their update rates", "statement": "Orientation, position and velocity packets are sent at their configured update rates: consecutive packets of the same kind are one period apart up to one time step, and exactly one period apart when the period is a multiple of a fixed time step.", "quantifier": "every update rate, every non-decreasing sequence of simulation times", "why_tests_cant": "unbounded sequences of times", "anchors": ["MAPLEAF/IO/HIL.py"]}
{"id": "C72", "title": "Optimizations start where they should", "statement": "Every particle of a swarm starts within the bounds of every variable and at the given value where one is given, and a set-up naming an unknown variable or giving a value outside the bounds is refused; an optimization run from a continuation file starts from where the previous one ended; a nested optimization minimises its own cost function.", "quantifier": "every list of variables, bounds, initial positions, solution and random values", "why_tests_cant": "unbounded lists, continuum of values", "anchors": ["MAPLEAF/SimulationRunners/Optimization.py::PSORunner._loadInitialPositions", "MAPLEAF/SimulationRunners/Optimization.py::ScipyMinimizeRunner._createContinuationFile", "MAPLEAF/SimulationRunners/Optimization.py::OptimizingSimRunner.__init__"]}
{"id": "C73", "title": "Slices of a fin cover exactly its planform", "statement": "The spanwise slices a fin is cut into lie side by side at equal distances from root to tip, each has a chord between those of root and tip, and together they have exactly the area of the fin, whatever their number; the mean aerodynamic chord and its position found by numerical integration differ from the exact ones by an amount that falls with the square of the number of integration steps.", "quantifier": "every trapezoidal fin with a positive span and root chord, every number of slices and integration steps", "why_tests_cant": "continuum of shapes, unbounded numbers of slices", "anchors": ["MAPLEAF/Rocket/Fins.py::FinSet._precomputeFinSliceArrays", "MAPLEAF/Rocket/Fins.py::FinSet._precomputeProperties"]}
{"id": "C76", "title": "Fin sets of any number of fins", "statement": "A fin set may have any positive number of fins: they are spread evenly around the body starting at the given angle, and the interference factor for their number lies in (0, 1] and never increases with the number of fins.", "quantifier": "every number of fins and first fin angle", "why_tests_cant": "unbounded number of fins", "anchors": ["MAPLEAF/Rocket/Fins.py::FinSet"]}
{"id": "C74", "title": "Fins turn the rocket into the wind and damp its roll", "statement": "At every Mach number, subsonic, transonic and supersonic, a fin of a rocket that does not roll is pushed to the side the air blows to, so the side force of a fin set acts downwind (and is never missing with three or more fins); in air flowing along the rocket an undeflected set produces a roll moment that opposes any roll rate, and with no roll only a braking force without side force or moment.", "quantifier": "every proper swept-back fin shape, number of slices and fins, deflection, Mach number, dynamic pressure, air velocity and roll rate", "why_tests_cant": "continuum of flow conditions, unbounded numbers of slices and fins", "anchors": ["MAPLEAF/Rocket/Fins.py::FinSet.getAppliedForce", "MAPLEAF/Rocket/Fins.py::Fin._barrowmanAeroFunc", "MAPLEAF/Rocket/CythonFinFunctions.pyx::getSubsonicFinNormalForce", "MAPLEAF/Rocket/CythonFinFunctions.pyx::getSupersonicFinNormalForce"]}
{"id": "C75", "title": "Centre of pressure of fins", "statement": "The centre of pressure of a fin moves smoothly with Mach number, without jumps or kinks where the method changes, and always lies between the leading and the trailing edge of the mean chord.", "quantifier": "every aspect ratio and Mach number", "why_tests_cant": "continuum of Mach numbers and shapes", "anchors": ["MAPLEAF/Rocket/Fins.py::FinSet._getCPXPos", "MAPLEAF/Rocket/Fins.py::FinSet._precomputeCPInterpolationPolynomial"]}
{"id": "C77", "title": "Body drag never accelerates the rocket", "statement": "The force a nose cone, body tube or transition computes from its drag and normal force coefficients never does positive work on the rocket's motion through the air, at whatever angle it meets the air; flying straight it is exactly dynamic pressure times area times drag coefficient backwards; the normal force coefficients of a stack of components that fit together depend only on its top and bottom areas.", "quantifier": "every air velocity and angle of attack, density, Mach number, size of component and stack of components", "why_tests_cant": "continuum of flow conditions, unbounded stacks", "anchors": ["MAPLEAF/Rocket/AeroFunctions.py::forceFromCdCN", "MAPLEAF/Rocket/noseCone.py::NoseCone.getAppliedForce", "MAPLEAF/Rocket/bodyTube.py::BodyTube.getAppliedForce", "MAPLEAF/Rocket/boatTail.py::Transition.getAppliedForce"]}
{"id": "C78", "title": "Skin friction is a continuous positive coefficient", "statement": "The skin friction coefficient is positive for every Reynolds and Mach number, roughness and boundary layer type, the compressibility correction lies in (0, 1] and is continuous in the Mach number, and the coefficient is continuous in the Reynolds number.", "quantifier": "every Reynolds number, Mach number, roughness, length and boundary layer type", "why_tests_cant": "continuum of flow conditions", "anchors": ["MAPLEAF/Rocket/AeroFunctions.py::getSkinFrictionCoefficient"]}
{"id": "C79", "title": "Centre of pressure of body components", "statement": "The centre of pressure reported for a force system is the point of the axis about which it has no pitching moment, and the centre of pressure of every nose cone, body tube and transition lies between its top and its bottom.", "quantifier": "every force, point of application and moment; every shape and size of body component", "why_tests_cant": "continuum of shapes and forces", "anchors": ["MAPLEAF/Rocket/AeroFunctions.py::_getCPZ", "MAPLEAF/Rocket/AeroFunctions.py::Barrowman_GetCPLocation", "MAPLEAF/Rocket/noseCone.py::NoseCone._precomputeGeometry", "MAPLEAF/Rocket/boatTail.py::Transition._precomputeGeometry"]}
{"id": "C80", "title": "Columns of aerodynamic coefficient tables may be in any order", "statement": "A table of aerodynamic coefficients is accepted exactly if its header names key columns followed by coefficient columns; each coefficient found in the table is used as that coefficient whatever the order of the columns, and coefficients not in the table are zero.", "quantifier": "every list of column names and every row of values", "why_tests_cant": "unbounded tables", "anchors": ["MAPLEAF/Rocket/RocketComponents.py::TabulatedAeroForce"]}
{"id": "C81", "title": "Damping moments oppose rotation", "statement": "The longitudinal and roll damping moments of a body tube, jet damping while propellant is burnt, and damping with non-positive coefficients never do positive work on the rotation, for every number of segments; damping about transverse axes is the same in every transverse direction.", "quantifier": "every angular velocity, air velocity, centre of rotation, tube and number of segments", "why_tests_cant": "continuum of rotations, unbounded numbers of segments", "anchors": ["MAPLEAF/Rocket/bodyTube.py::BodyTube._computeLongitudinalDampingMoments", "MAPLEAF/Rocket/AeroFunctions.py::getCylindricalSkinFrictionDragCoefficientAndRollDampingMoment", "MAPLEAF/Rocket/RocketComponents.py::FractionalJetDamping", "MAPLEAF/Rocket/RocketComponents.py::AeroDamping"]}
{"id": "C82", "title": "Lift is perpendicular to the air flow and drag along it", "statement": "A force computed from lift and drag coefficients has exactly the given drag along the relative air velocity and the given lift perpendicular to it in the plane of the rocket's axis, whatever the angle of attack; in still or absent air it is zero.", "quantifier": "every air velocity, density and set of coefficients", "why_tests_cant": "continuum of flow conditions", "anchors": ["MAPLEAF/Rocket/AeroFunctions.py::forceFromCoefficients"]}
{"id": "C83", "title": "Pressure drag is a continuous non-negative coefficient", "statement": "The pressure drag coefficients of cones, transitions and boat tails and the base drag coefficient exist, are not negative and change continuously with the Mach number at every Mach number from zero up.", "quantifier": "every Mach number, half angle, diameters and length", "why_tests_cant": "continuum of Mach numbers and shapes", "anchors": ["MAPLEAF/Rocket/AeroFunctions.py::getBaseDragCoefficient", "MAPLEAF/Rocket/noseCone.py::NoseCone._getCd_Pressure", "MAPLEAF/Rocket/boatTail.py::Transition", "MAPLEAF/Rocket/boatTail.py::BoatTail"]}
{"id": "C84", "title": "Volumes and areas of body components belong to their outline", "statement": "The volume and planform area computed for a nose cone or transition are those of the body of revolution whose radius it reports; the wetted area of a transition is the lateral area of the truncated cone.", "quantifier": "every shape, size and aspect ratio offered", "why_tests_cant": "continuum of shapes", "anchors": ["MAPLEAF/Rocket/noseCone.py::NoseCone._getVolume", "MAPLEAF/Rocket/noseCone.py::NoseCone._getPlanformArea", "MAPLEAF/Rocket/boatTail.py::Transition._precomputeGeometry"]}
{"id": "C85", "title": "Geometry queries of a stage", "statement": "The radius of a stage at a distance from its top is that of the component there, it is refused exactly outside the stage, components that fit together agree at their joints, the length of a stage without gaps is the sum of the lengths of its components and its diameter the largest of theirs.", "quantifier": "every list of components and every distance", "why_tests_cant": "unbounded numbers of components", "anchors": ["MAPLEAF/Rocket/stage.py::Stage.getRadius", "MAPLEAF/Rocket/stage.py::Stage.getLength", "MAPLEAF/Rocket/stage.py::Stage.getMaxDiameter"]}
{"id": "C86", "title": "Mean wind models", "statement": "A power-law wind keeps the direction of the ground wind, starts at it, grows with altitude by the power law up to the altitude limit and is constant and continuous outside; a tabulated wind exists at every altitude, equals the table at its altitudes, is constant beyond the ends and never stronger than the strongest entry; a heading is where the wind comes from, clockwise from north; sampled ground wind speeds follow a proper distribution with the documented chances of extreme winds.", "quantifier": "every altitude, table, exponent, limit, heading and wind rose", "why_tests_cant": "continuum of altitudes and winds, unbounded tables", "anchors": ["MAPLEAF/ENV/MeanWindModelling.py::Hellman.getMeanWind", "MAPLEAF/ENV/MeanWindModelling.py::InterpolatedWind.getMeanWind", "MAPLEAF/ENV/MeanWindModelling.py::_convertWindHeadingToXYPlaneWindDirection", "MAPLEAF/ENV/MeanWindModelling.py::WindRoseDataSampler._createWindSpeedCDF"]}
{"id": "C87", "title": "Radio sonde profiles", "statement": "The profiles a radio sonde file offers for a month are exactly the profiles of that month; a chosen profile is read with its header and all its measurements and none of its neighbours'; it becomes a wind table above ground sorted by height in which every measurement appears with its speed and heading; a month without profiles or an unknown month is refused.", "quantifier": "every file made of profiles, every month, random choice and set of measurements", "why_tests_cant": "unbounded files and profiles", "anchors": ["MAPLEAF/ENV/MeanWindModelling.py::RadioSondeDataSampler._readRadioSondeDataFile", "MAPLEAF/ENV/MeanWindModelling.py::RadioSondeDataSampler._extractRadioSondeDataSet", "MAPLEAF/ENV/MeanWindModelling.py::RadioSondeDataSampler._parseRadioSondeData"]}
{"id": "C88", "title": "The rocket starts where and as the definition says", "statement": "At launch the nose tip is at the requested position above the site's elevation, the long axis points in the requested direction (or is turned by the requested axis and angle) in local coordinates, velocity and spin relative to the ground are the requested ones; on a rail the rocket does not spin, the rail starts at the nose tip and points along the rocket, and taking the first step does not displace the rocket.", "quantifier": "every earth model with proper local frames, site, position, velocity, direction or axis and angle, spin, rail length and centre of gravity", "why_tests_cant": "continuum of set-ups and earth models", "anchors": ["MAPLEAF/Rocket/rocket.py::Rocket._initializeRigidBody", "MAPLEAF/Rocket/rocket.py::Rocket._moveStatePositionToCG", "MAPLEAF/ENV/environment.py::Environment.__init__", "MAPLEAF/ENV/environment.py::Environment.convertInitialStateToGlobalFrame"]}
{"id": "C89", "title": "Air seen by the rocket and the switch to three degrees of freedom", "statement": "Air properties are those of the atmosphere at the altitude above sea level and the wind that of the wind model at the height above the site, the wind being always mean plus turbulence; under a parachute turbulence is left out exactly when asked for and nothing else changes; switching to three degrees of freedom keeps position, velocity, time, the acceleration under a given force and the variables of components.", "quantifier": "every place, time, atmosphere, wind and turbulence model, state, force and set of components", "why_tests_cant": "continuum of places, models as parameters", "anchors": ["MAPLEAF/ENV/environment.py::Environment.getAirProperties", "MAPLEAF/ENV/environment.py::Environment.getWind", "MAPLEAF/Rocket/rocket.py::Rocket._getEnvironmentalConditions", "MAPLEAF/Rocket/rocket.py::Rocket._switchTo3DoF"]}
{"id": "C90", "title": "Stage separation is mechanically neutral", "statement": "At separation mass, linear momentum, common centre of gravity and angular momentum of the two bodies are together those of the rocket before, and no part of either body jumps.", "quantifier": "every state and every two inertias", "why_tests_cant": "continuum of states and inertias", "anchors": ["MAPLEAF/SimulationRunners/SingleSimulations.py::Simulation.createNewDetachedStage", "MAPLEAF/Rocket/rocket.py::Rocket._dropStage"]}
{"id": "C91", "title": "Variables of components are integrated with their own values", "statement": "Every extra variable a component asks to have integrated is added to the rocket's state under its name with that component's initial value and derivative function; ill-matched requests are refused.", "quantifier": "every list of components and requests of any length", "why_tests_cant": "unbounded numbers of components and variables", "anchors": ["MAPLEAF/Rocket/rocket.py::Rocket._switchToStatefulRigidBodyIfRequired"]}
{"id": "C92", "title": "Stages can be reached by name and have their own log files", "statement": "Every stage is available as an attribute of the rocket by its name as long as it is attached and not afterwards, attributes the rocket has otherwise are never changed or removed by this, and the bodies of a flight write to different log files.", "quantifier": "every list of stages, set of attributes and number of separations", "why_tests_cant": "unbounded lists of stages", "anchors": ["MAPLEAF/Rocket/rocket.py::Rocket._createStages", "MAPLEAF/Rocket/rocket.py::Rocket._dropStage", "MAPLEAF/Rocket/rocket.py::Rocket.writeLogsToFile"]}
{"id": "C93", "title": "Included files are added where they are included", "statement": "`!include F` adds every entry of file F below the dictionary the line stands in, with F's values, and touches nothing else; an entry that exists already is an error as anywhere in a file; a file that can not be loaded is an error.", "quantifier": "every file text, nesting and set of files", "why_tests_cant": "unbounded files and nesting; files as parameters", "anchors": ["MAPLEAF/IO/simDefinition.py::SimDefinition._loadSimDefinition", "MAPLEAF/IO/simDefinition.py::SimDefinition._parseSimulationDefinition"]}
{"id": "C94", "title": "Derived dictionaries are modified as their commands say", "statement": "`!create N from P` with any sequence of `!replace` and `!removeKeysContaining` adds exactly the parent's entries, renamed, with every text replaced in keys and values, without the removed ones, then the lines of the block; the parent may be in another file; unknown commands are errors.", "quantifier": "every parent, every sequence of commands, every block", "why_tests_cant": "unbounded sequences of commands over unbounded dictionaries", "anchors": ["MAPLEAF/IO/simDefinition.py::SimDefinition._parseSimulationDefinition"]}
{"id": "C95", "title": "A convergence study varies only the step", "statement": "`convergeSimEndPosition` runs the simulation with the initial time step (or target error, for adaptive schemes) divided by 1, r, r^2, ..., everything else equal (one end time, no plots, no sampling) and returns steps and final positions in this order; it runs as many simulations as asked for, or until the last three results are in the asymptotic range, for any flight.", "quantifier": "every definition, refinement ratio, number of simulations and simulated system", "why_tests_cant": "unbounded numbers of simulations; the simulated system is a parameter", "anchors": ["MAPLEAF/SimulationRunners/Convergence.py::ConvergenceSimRunner.convergeSimEndPosition", "MAPLEAF/SimulationRunners/Convergence.py::ConvergenceSimRunner._setUpConfigFileForConvergenceRun"]}
{"id": "C96", "title": "Comparison tables of integration schemes line up", "statement": "The table written by a comparison has a row per step and, per scheme, the final position of the simulation of that scheme with that step, all with the same end time and starting from the step in the definition.", "quantifier": "every list of schemes, definition and simulated system", "why_tests_cant": "unbounded lists of schemes and steps", "anchors": ["MAPLEAF/SimulationRunners/Convergence.py::ConvergenceSimRunner.compareClassicalIntegrationSchemes", "MAPLEAF/SimulationRunners/Convergence.py::ConvergenceSimRunner.compareAdaptiveIntegrationSchemes"]}
{"id": "C97", "title": "The command line starts what definition and options ask for", "statement": "An optimization is started for definitions with a cost function, else a Monte Carlo study for more than one run, else a batch for definitions without a rocket, else what the options say; options that can not be honoured are refused; the definition file is the one given, else the first matching example.", "quantifier": "every definition, combination of options and set of existing files", "why_tests_cant": "all combinations of definitions and options", "anchors": ["MAPLEAF/Main.py::main", "MAPLEAF/Main.py::findSimDefinitionFile", "MAPLEAF/Main.py::isBatchSim", "MAPLEAF/Main.py::isMonteCarloSimulation", "MAPLEAF/Main.py::isOptimizationProblem"]}
{"id": "C98", "title": "A parameter sweep logs every condition", "statement": "A wind tunnel sweep writes a log of one row per condition in which the values of the rocket and the forces and moments of every component are those of the rocket evaluated at that condition, and a log of coefficients formed with the reference quantities of that rocket; it does so whatever the logging level of the definition.", "quantifier": "every definition, list of keys, lists of values of any length and simulated system", "why_tests_cant": "unbounded numbers of conditions and components; the simulated system is a parameter", "anchors": ["MAPLEAF/SimulationRunners/SingleSimulations.py::WindTunnelSimulation.runSweep", "MAPLEAF/Rocket/RocketComponentFactory.py::initializeForceLogging", "MAPLEAF/Rocket/rocket.py::Rocket._getAppliedForce"]}
{"id": "C99", "title": "Coefficients in the expanded log", "statement": "The expanded log holds, for every component of every logged force and moment, the coefficient belonging to it (divided by dynamic pressure and area, and by length for moments), drag along and lift across the flow, all other columns unchanged, and finite numbers only; expanding a log twice is refused.", "quantifier": "every row of a log, of any number of components, and every orientation", "why_tests_cant": "unbounded numbers of columns, continuum of values", "anchors": ["MAPLEAF/IO/Logging.py::postProcessForceEvalLog"]}
{"id": "C100", "title": "The control system drives the actuators of the system it is given", "statement": "Once per control period, and not in between, the control system turns the orientation error into moments with the gains in force and the moments into actuator targets by the table of its controlled system, whose actuators move towards them within their limits; it controls exactly the component named, on whatever stage, logs what it did, and goes with the stage that carries its actuators.", "quantifier": "every rocket, control rate, gain table, table of deflections, number of actuators and sequence of calls", "why_tests_cant": "unbounded sequences of calls, tables as parameters", "anchors": ["MAPLEAF/GNC/ControlSystems.py::RocketControlSystem.runControlLoopIfRequired", "MAPLEAF/GNC/ControlSystems.py::RocketControlSystem.__init__", "MAPLEAF/GNC/MomentControllers.py", "MAPLEAF/GNC/Actuators.py::TableInterpolatingActuatorController", "MAPLEAF/GNC/actuatedSystem.py::ActuatedSystem.__init__", "MAPLEAF/Rocket/rocket.py::Rocket._dropStage"]}
{"id": "C101", "title": "Recorded flights and the frames of animations", "statement": "A recorded flight holds one state and, for a controlled rocket, one deflection per actuator for every recorded time; reducing flights to N frames gives each of them N states at equal distances in time from zero to the end of the longest flight, showing position, velocity and orientation recorded at that time (interpolated between neighbours, end states outside the flight), never outside the recorded range.", "quantifier": "every list of flights, number of frames and sequence of recordings", "why_tests_cant": "unbounded numbers of recordings and frames, continuum of states", "anchors": ["MAPLEAF/IO/Plotting.py::_keepNTimeSteps", "MAPLEAF/SimulationRunners/SingleSimulations.py::Simulation.cacheState", "MAPLEAF/SimulationRunners/SingleSimulations.py::Simulation._setUpCachingForFlightAnimation", "MAPLEAF/Motion/RigidBodyStates.py::interpolateRigidBodyStates"]}
{"id": "C102", "title": "Plots show the requested columns of the logs", "statement": "Plotting a definition draws for every column whose name it selects one curve, with the values of the first log that has the column against the times of that log, and nothing else; caching of logs makes no difference and keeps at most ten of them.", "quantifier": "every set of logs, definition, regular expression matching and sequence of reads", "why_tests_cant": "unbounded logs and sequences of reads; regular expressions and files are parameters", "anchors": ["MAPLEAF/IO/Plotting.py::plotFromLogFiles", "MAPLEAF/IO/Plotting.py::tryPlottingFromLog", "MAPLEAF/IO/Plotting.py::getLoggedColumns"]}
{"id": "C103", "title": "Batch runs: every case with its own definition and overrides", "statement": "A batch run runs exactly the cases of the batch definition that the filters select, each once and each from its own definition file with exactly the parameters listed under its overrides replaced, plots off and logging at level 3 or more unless overridden; what a case runs does not depend on the cases before it, and a case that fails does not keep the others from running.", "quantifier": "every batch definition, filter, set of override keys, definition files and recorded results", "why_tests_cant": "unbounded numbers of cases and overrides; files and simulations are parameters", "anchors": ["MAPLEAF/SimulationRunners/Batch.py::run", "MAPLEAF/SimulationRunners/Batch.py::_runCase", "MAPLEAF/SimulationRunners/Batch.py::_implementParameterOverrides", "MAPLEAF/SimulationRunners/Batch.py::BatchRun.getCasesToRun", "MAPLEAF/SimulationRunners/Batch.py::_setUpDefaultResultRecording"]}
{"id": "C104", "title": "Values of a parameter sweep", "statement": "A range start:count:end of a sweep stands for count values at equal distances from start to end (component by component for vectors), any other text for the list of its values; every value is one that can be read back.", "quantifier": "every text of a range or list, any number of values", "why_tests_cant": "unbounded numbers of values; continuum of ranges", "anchors": ["MAPLEAF/SimulationRunners/Batch.py::_parseParameterSweepValues", "MAPLEAF/Motion/CythonVector.pyx::Vector.__init__"]}
{"id": "C105", "title": "Validation against comparison data", "statement": "The average error reported for a comparison is the mean relative difference in percent between the curve of the simulation, interpolated at the points of the comparison, and the comparison data; it is zero if they agree; for several curves it is that of the closest.", "quantifier": "all curves and comparison data of any length", "why_tests_cant": "unbounded lengths, continuum of values", "anchors": ["MAPLEAF/SimulationRunners/Batch.py::_validate"]}
{"id": "C106", "title": "Texts of vectors", "statement": "A text of three numbers, separated by blanks, commas or semicolons, with or without brackets and surrounding space, is read as the vector of these numbers; a vector written and read again is the same; any other text is refused.", "quantifier": "all texts of numbers, separators, brackets and amounts of space", "why_tests_cant": "unbounded texts", "anchors": ["MAPLEAF/Motion/CythonVector.pyx::Vector.__init__", "MAPLEAF/Motion/CythonVector.pyx::Vector.__str__"]}
{"id": "C107", "title": "Ground winds sampled from wind roses", "statement": "A ground wind sampled from wind roses has a speed following the recorded frequencies of the speeds and a heading following the recorded frequencies of the headings at that speed, averaged over the locations by their weights (of which only the ratios matter); it is horizontal, and no heading without recorded wind of about that speed is drawn.", "quantifier": "every set of tables of any number of headings and locations, all weights and random numbers", "why_tests_cant": "continuum of random numbers and frequencies, unbounded tables", "anchors": ["MAPLEAF/ENV/MeanWindModelling.py::WindRoseDataSampler.sampleWindRoses", "MAPLEAF/ENV/MeanWindModelling.py::WindRoseDataSampler._getAveragedWindRose", "MAPLEAF/ENV/MeanWindModelling.py::WindRoseDataSampler._createWindSpeedCDF", "MAPLEAF/ENV/MeanWindModelling.py::WindRoseDataSampler._createHeadingCDF", "MAPLEAF/ENV/MeanWindModelling.py::WindRoseDataSampler._readWindRose"]}
{"id": "C108", "title": "A flight without air is a parabola", "statement": "With a constant acceleration (no air, uniform gravity), however the mass changes, the positions and velocities of a body with three degrees of freedom are those of the parabola, with every selectable integration method but Euler's, whatever the steps and the step-size control, up to 1e-15 of the distances involved (exactly for Heun's and the 3/8 rule); Euler's method lags behind by half the sum of the squared steps times the acceleration.", "quantifier": "all initial states, accelerations, masses over time, numbers and sizes of steps, methods and answers of the controller", "why_tests_cant": "continuum of states and steps, unbounded numbers of steps", "anchors": ["MAPLEAF/Motion/Integration.py::integratorFactory", "MAPLEAF/Motion/Integration.py::ClassicalIntegrator", "MAPLEAF/Motion/Integration.py::AdaptiveIntegrator.integrate", "MAPLEAF/Motion/RigidBodies.py::RigidBody_3DoF.timeStep", "MAPLEAF/Motion/RigidBodyStates.py::RigidBodyState_3DoF"]}
{"id": "C109", "title": "Names select their models", "statement": "An environment is made exactly when every name is a documented one and its parameters can be read; it then has the models named, with their parameters as given (temperature in degrees Celsius, intensity in percent); parameters of other models do not matter, undocumented names are refused, a definition that says nothing gets a flat Earth, the standard atmosphere, no wind and no turbulence; every documented choice works.", "quantifier": "all definitions, texts and readings of numbers", "why_tests_cant": "unbounded definitions", "anchors": ["MAPLEAF/ENV/environment.py::Environment.__init__", "MAPLEAF/ENV/EarthModelling.py::earthModelFactory", "MAPLEAF/ENV/AtmosphereModelling.py::atmosphericModelFactory", "MAPLEAF/ENV/MeanWindModelling.py::meanWindModelFactory", "MAPLEAF/ENV/TurbulenceModelling.py::turbulenceModelFactory", "MAPLEAF/Motion/Integration.py::integratorFactory"]}
{"id": "C110", "title": "The rocket has the stages and components of its definition", "statement": "Every sub-dictionary of Rocket except ControlSystem, HIL and Aero is a stage; every sub-dictionary of a stage becomes exactly one component, of the class it names, bodies before everything else and then in the order of their names; a missing or unknown class is refused; the reference diameter is that of the widest body tube of any stage and the reference area the area of its circle.", "quantifier": "every definition, with any number of stages and components", "why_tests_cant": "unbounded numbers of stages and components", "anchors": ["MAPLEAF/Rocket/stage.py::Stage.initializeSubComponents", "MAPLEAF/Rocket/RocketComponentFactory.py::rocketComponentFactory", "MAPLEAF/Rocket/rocket.py::Rocket._getStageSubDicts", "MAPLEAF/Rocket/rocket.py::Rocket._getMaxBodyTubeDiameter"]}
{"id": "C111", "title": "A rocket that was constructed is ready to fly", "statement": "After construction every component has the properties it computes in advance; if one of them can not be computed, the construction fails with the error.", "quantifier": "every list of components and outcome of their preparation", "why_tests_cant": "unbounded numbers of components, preparation as a parameter", "anchors": ["MAPLEAF/Rocket/rocket.py::Rocket._precomputeComponentProperties", "MAPLEAF/Rocket/Fins.py::FinSet.precomputeProperties"]}
{"id": "C112", "title": "Components sit where the definition puts them, with the inertia it gives", "statement": "Positions are relative to the stage: moving a stage moves its components, their centres of gravity and their points of application along; mass and moments of inertia are those given, and values that can not be read are refused; a tabulated inertia follows its table, interpolated between its lines and held beyond its ends.", "quantifier": "every stage position, component, table of any length and time", "why_tests_cant": "continuum of positions and times, unbounded tables", "anchors": ["MAPLEAF/Rocket/RocketComponents.py::FixedMass.__init__", "MAPLEAF/Rocket/RocketComponents.py::FixedForce.__init__", "MAPLEAF/Rocket/RocketComponents.py::TabulatedInertia", "MAPLEAF/Rocket/stage.py::Stage.__init__"]}
{"id": "C113", "title": "Length and fineness ratio of the rocket", "statement": "The length of a rocket whose bodies are stacked without gaps is the distance from its tip to its tail and the sum of the lengths of its bodies, whatever other components and stages there are; the fineness ratio is this length divided by the largest diameter, and absent exactly without bodies.", "quantifier": "every list of stages and components", "why_tests_cant": "unbounded numbers of stages and components", "anchors": ["MAPLEAF/Rocket/rocket.py::Rocket.getLength", "MAPLEAF/Rocket/rocket.py::Rocket._updateFinenessRatio", "MAPLEAF/Rocket/stage.py::Stage.getLength", "MAPLEAF/Rocket/stage.py::Stage.getMaxDiameter"]}
{"id": "C114", "title": "Drag of fins", "statement": "The drag coefficient of a set of fins exists and is positive at every Mach number, changes continuously with it, gives the same drag whatever the reference area, and is not lower for thicker leading or trailing edges; edges are those named in the definition, with a default only for leading edges, and other shapes are refused.", "quantifier": "every trapezoidal fin, thickness, edge shape, friction coefficient, Mach number and reference area", "why_tests_cant": "continuum of shapes and Mach numbers", "anchors": ["MAPLEAF/Rocket/Fins.py::FinSet.getAppliedForce", "MAPLEAF/Rocket/Fins.py::FinSet._precomputeSubsonicFinThicknessDrag", "MAPLEAF/Rocket/Fins.py::FinSet.__init__", "MAPLEAF/Rocket/AeroFunctions.py::getCylinderCrossFlowCd_ZeroBaseDrag", "MAPLEAF/Rocket/AeroFunctions.py::getBluntBodyCd_ZeroBaseDrag"]}
{"id": "C115", "title": "Console output is recorded and shown", "statement": "Every simulation with logging writes, as the console record of its results, the system information, the definition, and everything printed from its preparation to its end, including the trace of a crash, and no other text, whatever ran before; the terminal shows the same output unless the simulation is silent, in which case it shows nothing of it; afterwards the caller's own output is shown again. The record of a wind tunnel sweep covers all its conditions.", "quantifier": "every console state, sequence of simulations, printed texts, logging level, silence and crash", "why_tests_cant": "unbounded sequences of simulations sharing one console", "anchors": ["MAPLEAF/IO/Logging.py::Logger", "MAPLEAF/IO/Logging.py::removeLogger", "MAPLEAF/IO/Logging.py::getSystemInfo", "MAPLEAF/SimulationRunners/SingleSimulations.py::Simulation._setUpConsoleLogging", "MAPLEAF/SimulationRunners/SingleSimulations.py::Simulation._logSimulationResults", "MAPLEAF/SimulationRunners/SingleSimulations.py::Simulation._handleSimulationCrash", "MAPLEAF/SimulationRunners/SingleSimulations.py::WindTunnelSimulation.runSweep"]}
{"id": "C116", "title": "The report of a Monte Carlo study", "statement": "For any number of runs the report has one part for every quantity asked for and for no other, with the value of every run in the order of the runs and their mean and sample standard deviation; the file holds exactly the reported lines, and is written unless no output was asked for; the log also has the sampled values under the number of their run; the landing plot shows every landing location.", "quantifier": "every list of runs, quantities asked for and sampled values", "why_tests_cant": "unbounded numbers of runs", "anchors": ["MAPLEAF/SimulationRunners/MonteCarlo.py::_showResults", "MAPLEAF/SimulationRunners/MonteCarlo.py::runMonteCarloSimulation", "MAPLEAF/IO/Plotting.py::plotAndSummarizeVectorResult", "MAPLEAF/IO/Plotting.py::plotAndSummarizeScalarResult", "MAPLEAF/IO/Logging.py::MonteCarloLogger"]}
{"id": "C117", "title": "Motor definition files", "statement": "A motor definition file, with any comments, empty lines and white space, is accepted exactly if its remaining lines are four named positions and at least one row of four numbers and two vectors in brackets; then the motor has exactly these positions, shifted by the position of the stage, and these rows in their order.", "quantifier": "every text", "why_tests_cant": "unbounded texts", "anchors": ["MAPLEAF/Rocket/Propulsion.py::TabulatedMotor._parseMotorDefinitionFile"]}
{"id": "C118", "title": "Continuation files of swarm optimizations", "statement": "When a swarm optimization ends it returns its result and writes a definition that has everything the optimized definition has, with the last positions of all particles and the best position and cost as initial positions, whatever initial positions were there before; the optimized definition itself is left alone. A swarm started from the written definition starts with exactly the particles of the one that was stopped, whatever the order in which it finds particles and variables.", "quantifier": "every definition, file name, swarm of any size and number of variables", "why_tests_cant": "unbounded swarms and definitions; files that are overwritten only for some names", "anchors": ["MAPLEAF/SimulationRunners/Optimization.py::PSORunner._createContinuationFile", "MAPLEAF/SimulationRunners/Optimization.py::PSORunner.runOptimization", "MAPLEAF/SimulationRunners/Optimization.py::PSORunner._loadInitialPositions", "MAPLEAF/SimulationRunners/Optimization.py::optimizationRunnerFactory"]}
{"id": "C119", "title": "What an optimization evaluates", "statement": "The cost of a trial is the value of the cost expression for the flight time, apogee, maximum speed and maximum horizontal speed of the flight of the top stage, or the named function of the log files; the dependent variables are exactly those of the definition; a batch optimization evaluates every case of the batch definition once, with its own file and overrides; costs computed in parallel are those computed one after the other; the optimizer is the one named, with the number of particles given or its default.", "quantifier": "every definition, flight, expression, batch definition, trial and nested optimization", "why_tests_cant": "unbounded definitions, batches and trials; texts of every form", "anchors": ["MAPLEAF/SimulationRunners/Optimization.py::_computeCostFunction", "MAPLEAF/SimulationRunners/Optimization.py::OptimizingSimRunner._loadDependentVariables", "MAPLEAF/SimulationRunners/Optimization.py::OptimizingSimRunner._loadBatchOptimization", "MAPLEAF/SimulationRunners/Optimization.py::OptimizingSimRunner._computeCostFunctionValues_Parallel", "MAPLEAF/SimulationRunners/Optimization.py::optimizationRunnerFactory"]}
{"id": "C120", "title": "Uncertain parameters outside Monte Carlo studies", "statement": "A convergence study never samples uncertain parameters: it studies the definition with their mean values. An optimization samples them again for each simulation it runs.", "quantifier": "every definition, standard deviations, random numbers, trials and dynamics", "why_tests_cant": "the random numbers; studies and optimizations of any length", "anchors": ["MAPLEAF/SimulationRunners/Convergence.py::ConvergenceSimRunner._setUpConfigFileForConvergenceRun", "MAPLEAF/IO/simDefinition.py::SimDefinition.resampleProbabilisticValues", "MAPLEAF/SimulationRunners/Optimization.py::OptimizingSimRunner._computeCostFunctionValues_SingleThreaded", "SimDefinitionTemplate.mapleaf"]}
{"id": "C121", "title": "Flight animations", "statement": "Frame k of an animation shows every stage where it was at k equal parts of the longest flight, with the path up to then: its axis along its orientation, its position in the middle of it, its fins evenly around the axis, its canards turned by the deflections of the actuators; under a parachute the canopy, small until the main parachute is out. The path is red while the engine burns. Landed stages are gray. All of the flight is inside the axes, the last frame is the end of the flight, and the file written is the one asked for.", "quantifier": "every set of flights, numbers of frames, states, deflections and event times", "why_tests_cant": "flights of any length, stages of any number; trigonometry over the reals", "anchors": ["MAPLEAF/IO/Plotting.py::flightAnimation", "MAPLEAF/IO/Plotting.py::_update_plot", "MAPLEAF/IO/Plotting.py::_getRocketPoints", "MAPLEAF/IO/Plotting.py::_createReferenceVectors", "MAPLEAF/IO/Plotting.py::_get3DPlotSize", "MAPLEAF/IO/Plotting.py::_createAnimationFigure"]}
{"id": "C122", "title": "Flights after plotting", "statement": "A plot of flight paths draws every recorded position, on axes of one scale that contain all of them; plotting does not change the flights a simulation returns.", "quantifier": "every set of flights and plots", "why_tests_cant": "flights of any length", "anchors": ["MAPLEAF/IO/Plotting.py::plotFlightPaths_NoEarth", "MAPLEAF/IO/Plotting.py::_keepNTimeSteps", "MAPLEAF/SimulationRunners/SingleSimulations.py::Simulation._plotSimulationResults"]}
{"id": "C123", "title": "Recorded results of batch runs", "statement": "A batch run that records results takes, for every expected value of its cases, the value simulated (for a sweep all values of the column) without checking anything, and writes them to a new file next to the definition, which stays as it is. If the same simulations are run again with the recorded values, every comparison passes. A case without expected values records position and velocity.", "quantifier": "every batch, log, column specification and value", "why_tests_cant": "unbounded cases, logs and values", "anchors": ["MAPLEAF/SimulationRunners/Batch.py::_checkSimResults", "MAPLEAF/SimulationRunners/Batch.py::_runParameterSweepCase", "MAPLEAF/SimulationRunners/Batch.py::_setUpDefaultResultRecording", "MAPLEAF/SimulationRunners/Batch.py::_writeModifiedTestDefinitionFile"]}
{"id": "C124", "title": "Plots of batch cases", "statement": "A plot of a batch case has one curve for every logged column that matches one of its columnsToPlot, over its x-column from the same log, scaled and shifted as asked, with its own label, format and colour, on axes scaled as asked; the same data are validated. Comparison data are drawn completely or left out with a warning.", "quantifier": "every plot dictionary, set of logs, comparison file and regular expression matcher", "why_tests_cant": "unbounded logs, columns and specifications", "anchors": ["MAPLEAF/SimulationRunners/Batch.py::_generatePlot", "MAPLEAF/SimulationRunners/Batch.py::_setUpFigure", "MAPLEAF/SimulationRunners/Batch.py::_plotComparisonData", "MAPLEAF/SimulationRunners/Batch.py::_plotData"]}
{"id": "C125", "title": "Files of figures", "statement": "A figure is saved in the directory asked for under its own name, once for every format asked for; existing files are replaced only if asked for, and no other file changes.", "quantifier": "every directory, name, state of the file system and choice of formats", "why_tests_cant": "every name; arbitrary file systems", "anchors": ["MAPLEAF/IO/gridConvergenceFunctions.py::saveFigureAndPrintNotification", "MAPLEAF/SimulationRunners/Batch.py::_generatePlot"]}
{"id": "C126", "title": "Time step log of a flight", "statement": "The time step log of a flight has one row per time step, with the time and the motion from which the step was taken, and a row for the final state; rows of the flight as a point hold zeros for what they do not know; the error estimate of an adaptive step stands in the row of the step. The Euler angles of a row, applied as yaw, pitch and roll to north, east and down at the position of the rocket, give its axes.", "quantifier": "every logging level, integration method, list of steps and orientation", "why_tests_cant": "flights of any number of steps, mixing fixed and adaptive steps and 6-DoF and 3-DoF motion; continuum of orientations and positions", "anchors": ["MAPLEAF/Rocket/rocket.py::Rocket._logState", "MAPLEAF/Rocket/rocket.py::Rocket.timeStep", "MAPLEAF/SimulationRunners/SingleSimulations.py::Simulation.run", "MAPLEAF/ENV/EarthModelling.py::EarthModel.getInertialToNEDFrameRotation"]}
{"id": "C127", "title": "Drawing of the rocket", "statement": "The drawing of a rocket (SimControl.RocketPlot) shows every body component with its outline at its place, every fin as seen from the side, the centre of gravity of every component and that of the whole rocket.", "quantifier": "every rocket of any number of stages, components and fins", "why_tests_cant": "continuum of dimensions; any number of components", "anchors": ["MAPLEAF/Rocket/rocket.py::Rocket.plotShape", "MAPLEAF/Rocket/stage.py::Stage.plotShape", "MAPLEAF/Rocket/bodyTube.py::BodyTube.plotShape", "MAPLEAF/Rocket/noseCone.py::NoseCone.plotShape", "MAPLEAF/Rocket/boatTail.py::Transition.plotShape", "MAPLEAF/Rocket/Fins.py::FinSet.plotShape"]}
{"id": "C128", "title": "Turning, moving or delaying a launch", "statement": "Over the flat earth, turning a launch and its wind by one angle about the vertical, moving it horizontally, or starting it later turns, moves and delays the whole flight, through every time step of every integration method: the altitudes, speeds, step sizes and error estimates are the same. For a rocket that looks the same from all sides, as bodies of revolution do, this is also so when only the launch direction of the definition and the wind are turned. The same holds for the descent under parachutes. A set of n equal fins looks the same after every n-th part of a turn.", "quantifier": "every rocket (any forces, moments and inertia that depend on the conditions the rocket sees), state, wind, rail, integration method and number of steps", "why_tests_cant": "the whole flight: unbounded numbers of time steps, continuum of angles and displacements", "anchors": ["MAPLEAF/Motion/RigidBodies.py::RigidBody", "MAPLEAF/Motion/RigidBodyStates.py::RigidBodyState", "MAPLEAF/Motion/Integration.py::AdaptiveIntegrator", "MAPLEAF/Rocket/rocket.py::Rocket._getAppliedForce", "MAPLEAF/Rocket/rocket.py::Rocket._initializeRigidBody", "MAPLEAF/ENV/environment.py::Environment.getAirProperties", "MAPLEAF/Rocket/bodyTube.py::BodyTube._computeLongitudinalDampingMoments", "MAPLEAF/Rocket/Recovery.py::RecoverySystem.getAppliedForce", "MAPLEAF/Rocket/Fins.py::FinSet.getAppliedForce"]}
{"id": "C129", "title": "Flights in a stronger wind", "statement": "If the wind over the flat earth is stronger by the same horizontal velocity everywhere, a rocket launched with this additional velocity flies the same relative to the air: the same altitudes, attitudes, rates and steps; its velocity is higher by the additional wind and every position is further by the additional wind times the time of flight, ascent and descent under parachutes together.", "quantifier": "every rocket, state, wind profile, additional wind, integration method, recovery system and number of steps", "why_tests_cant": "the whole flight: unbounded numbers of time steps, continuum of winds", "anchors": ["MAPLEAF/ENV/environment.py::Environment.getAirProperties", "MAPLEAF/Motion/RigidBodies.py::RigidBody", "MAPLEAF/Motion/RigidBodies.py::RigidBody_3DoF", "MAPLEAF/Motion/Integration.py::AdaptiveIntegrator", "MAPLEAF/Rocket/Recovery.py::RecoverySystem.getAppliedForce", "MAPLEAF/Rocket/rocket.py::Rocket._switchTo3DoF"]}
{"id": "C130", "title": "Straight flights", "statement": "A rocket of body tubes, nose cone, transitions and sets of two or more equal fins on one axis, launched straight up in calm air, from a rail or not, with a spin about its axis or not, stays on the vertical line over its launch site, moves along it and points along it, after any number of steps of any integration method. More generally a body without spin on which no moment acts keeps its attitude and moves as a point of its mass under the same forces, with the same steps.", "quantifier": "every such rocket, state, thrust, drag and mass over time, rail, integration method and number of steps", "why_tests_cant": "the whole flight: unbounded numbers of time steps, continuum of states, forces and masses; any number of fins", "anchors": ["MAPLEAF/Motion/RigidBodies.py::RigidBody", "MAPLEAF/Motion/RigidBodyStates.py::RigidBodyState", "MAPLEAF/Motion/Integration.py::AdaptiveIntegrator", "MAPLEAF/Rocket/rocket.py::Rocket._getAppliedForce", "MAPLEAF/Rocket/rocket.py::Rocket._initializeRigidBody", "MAPLEAF/Rocket/Fins.py::FinSet.getAppliedForce", "MAPLEAF/Rocket/bodyTube.py::BodyTube.getAppliedForce", "MAPLEAF/Rocket/noseCone.py::NoseCone.getAppliedForce", "MAPLEAF/Rocket/boatTail.py::Transition.getAppliedForce", "MAPLEAF/ENV/launchRail.py::LaunchRail"]}
{"id": "C131", "title": "Hardware in the loop: real time and replies", "statement": "With hardware in the loop, each time step sends its packets, waits until the clock has reached the simulated time, and then asks for the canard angles once, so the simulation never runs ahead of real time; a reply in time sets the angles of its own step, canard by canard, and canards whose lines do not come in time keep their angle; one late reply does not disturb the replies after it. Before launch the controller gets a reset, one packet of each kind and the launch command.", "quantifier": "every sequence of time steps, states, clock readings and bytes arriving at any times, every update rate", "why_tests_cant": "unbounded number of steps, arbitrary timing of the hardware", "anchors": ["MAPLEAF/IO/HIL.py::HILInterface.performHIL", "MAPLEAF/IO/HIL.py::HILInterface.requestCanardAngles", "MAPLEAF/IO/HIL.py::HILInterface.setupHIL"]}
{"id": "C132", "title": "Hardware in the loop: the hardware steers the rocket", "statement": "The angles the hardware replies are applied to the simulated rocket: other replies give another flight. No completed step is ahead of the clock.", "quantifier": "every rocket, step size, sequence of replies and clock readings", "why_tests_cant": "unbounded number of steps; all behaviours of the hardware", "anchors": ["MAPLEAF/SimulationRunners/SingleSimulations.py::Simulation.run", "MAPLEAF/IO/HIL.py::HILInterface.getCanardAngles", "MAPLEAF/Rocket/rocket.py::Rocket"]}
{"id": "C133", "title": "The cost of a controlled flight", "statement": "The cost function for moment controllers is 100 times the sum of half the time integrals of the squared pitch and yaw errors and the whole integral of the squared roll error, taken from the control system's log of the flight; it is never negative, zero only without errors, refuses flights without such a log, and removes exactly the log files of the flight.", "quantifier": "every controlled flight: any times, errors, actuators and other log files", "why_tests_cant": "unbounded numbers of rows and columns; continuum of errors", "anchors": ["MAPLEAF/OptimizationFunctions/MomentPIDCostOptimizationFunction.py::OptimizationFunction", "MAPLEAF/GNC/ControlSystems.py::RocketControlSystem.runControlLoopIfRequired", "MAPLEAF/GNC/ControlSystems.py::RocketControlSystem.writeLogsToFile", "MAPLEAF/IO/CythonLog.pyx::Log.writeToCSV", "MAPLEAF/IO/Plotting.py::getLoggedColumns"]}
{"id": "C134", "title": "Plots of a grid convergence study", "statement": "Where three meshes converge geometrically, the convergence plots show the exact limit as the extrapolated line, a shaded band around the finest values that contains the limit, the true orders of convergence and the three curves as given; axes given by the caller keep what they show and get the new curves; the three figures are saved in three formats in the directory asked for, existing files only if they may be overwritten, and nothing else is written.", "quantifier": "every study: meshes of any sizes with any values, settings, axes and figures given or not, files there before, every interpolation through its points", "why_tests_cant": "unbounded numbers of locations; continuum of values; all combinations of settings", "anchors": ["MAPLEAF/IO/gridConvergenceFunctions.py::plotConvergence", "MAPLEAF/IO/gridConvergenceFunctions.py::interpolateDataToCoarseMesh", "MAPLEAF/IO/gridConvergenceFunctions.py::checkConvergence", "MAPLEAF/IO/gridConvergenceFunctions.py::saveFigureAndPrintNotification"]}
{"id": "C135", "title": "Comparing values", "statement": "Comparing two values with == - vectors, quaternions, force-moment systems, inertias, rigid body states, their derivatives, composite states, simulation definitions - is true exactly if they are of the same kind and consist of the same numbers (definitions: the same keys and values, in any order), is an equivalence, and never raises.", "quantifier": "every pair of values, composite states with any number and kind of variables, nested to any depth", "why_tests_cant": "continuum of values, unbounded composite states, all pairs of kinds", "anchors": ["MAPLEAF/Motion/CythonVector.pyx::Vector.__eq__", "MAPLEAF/Motion/CythonQuaternion.pyx::Quaternion.__eq__", "MAPLEAF/Motion/forceMomentSystem.py::ForceMomentSystem.__eq__", "MAPLEAF/Motion/inertia.py::Inertia.__eq__", "MAPLEAF/Motion/RigidBodyStates.py::RigidBodyState.__eq__", "MAPLEAF/Motion/RigidBodyStates.py::StateList.__eq__", "MAPLEAF/IO/simDefinition.py::SimDefinition.__eq__"]}
