{"id": "C01", "title": "Row-major indexing is a bijection", "statement": "On a grid whose cell count fits in 32 bits, grid2RowMajor maps the in-bounds (row, column) pairs one-to-one onto the indices 0..size-1 and rowMajor2Grid is its inverse in both directions.", "quantifier": "every grid width and height with width*height < 2^32, every in-bounds cell, every index below size", "why_tests_cant": "tests check one index of one 2x3 grid; the claim ranges over all sizes and includes the wrap-around of unsigned arithmetic", "anchors": ["src/ergodic_exploration/grid.cpp::GridMap::grid2RowMajor", "src/ergodic_exploration/grid.cpp::GridMap::rowMajor2Grid"]}
{"id": "C02", "title": "Bounds tests are exact", "statement": "On a non-empty grid gridBounds(i,j) is true exactly when i is below the row count and j below the column count, gridBounds(idx) is true exactly when idx is below size, and an in-bounds pair always has an in-bounds index. On an empty grid (the default-constructed map) both tests accept every argument.", "quantifier": "every grid (including zero-sized ones) and every 32-bit argument", "why_tests_cant": "the unsigned subtraction size-1 wraps for empty grids; only a proof covers all sizes and all 2^32 arguments", "anchors": ["src/ergodic_exploration/grid.cpp::GridMap::gridBounds"]}
{"id": "C03", "title": "Construction establishes the data-size invariant, and in-bounds reads never fail", "statement": "The constructors reject data whose length differs from width*height computed in 32 bits; after a successful construction of a grid whose true cell count fits in 32 bits every in-bounds read succeeds and every out-of-bounds index read throws. When the 32-bit product wraps, a grid can be accepted whose data are shorter than its cell count.", "quantifier": "every width, height and data vector", "why_tests_cant": "the failing cases need grids with 2^32 cells; tests cannot enumerate them", "anchors": ["src/ergodic_exploration/grid.cpp::GridMap::GridMap", "src/ergodic_exploration/grid.cpp::GridMap::getCell"]}
{"id": "C04", "title": "A map update replaces the whole map but is not validated", "statement": "After update(msg) the map's geometry and data are exactly those of the message, whatever the previous map was; unlike construction the data size is not checked, so after an update with short data an in-bounds read throws out_of_range.", "quantifier": "every previous map and every message", "why_tests_cant": "ranges over all histories of messages", "anchors": ["src/ergodic_exploration/grid.cpp::GridMap::update", "include/ergodic_exploration/exploration.hpp::Exploration::mapCallback"]}
{"id": "C05", "title": "Cell-centre round trip", "statement": "world2Grid(grid2World(i,j)) = (i,j) for every in-bounds cell: in exact arithmetic for every positive resolution and origin, and in IEEE binary64 whenever the origin and extent are below a stated multiple of the resolution.", "quantifier": "every grid geometry, every cell; exact reals and binary64 with rounding at each operation", "why_tests_cant": "rounding at each of six operations over a continuum of resolutions and origins", "anchors": ["src/ergodic_exploration/grid.cpp::GridMap::grid2World", "src/ergodic_exploration/grid.cpp::GridMap::world2Grid"]}
{"id": "C06", "title": "world2Grid returns the cell containing the point", "statement": "For every point inside the map rectangle world2Grid returns in-bounds indices of a cell whose rectangle contains the point (the upper and right edge belong to the last row and column), and the centre of that cell is within half a cell of the point on both axes. In binary64 the returned indices are in bounds too, and the point lies in the returned cell or within 2^-19 of a cell side of it.", "quantifier": "every map geometry and every real point of the closed map rectangle", "why_tests_cant": "continuum of points; boundary cases at cell edges", "anchors": ["src/ergodic_exploration/grid.cpp::GridMap::world2Grid", "src/ergodic_exploration/grid.cpp::GridMap::grid2World"]}
{"id": "C07", "title": "Off-map points: what is rejected, snapped, or undefined", "statement": "For a point left of or below the map, however little, the float-to-unsigned conversion is undefined behaviour; a point beyond the right/top edge by less than one cell is silently snapped to the border cell; one or more cells beyond it the returned index is out of bounds.", "quantifier": "every map and every off-map point", "why_tests_cant": "undefined behaviour cannot be tested; continuum of points", "anchors": ["src/ergodic_exploration/grid.cpp::GridMap::world2Grid"]}
{"id": "C08", "title": "Axis length and axis upper limit are inverse", "statement": "axis_length(lower, axis_upper(lower, resolution, n), resolution) = n for every positive resolution and every n below 2^32 (exact arithmetic, and binary64 when the lower limit is at most 2^48 cells from zero; false far away); axis_length of a rounded extent is the nearest whole number of cells. A grid built from a message equals the grid built from the bounds and data of that grid.", "quantifier": "every lower limit, resolution and size", "why_tests_cant": "continuum of resolutions", "anchors": ["include/ergodic_exploration/grid.hpp::axis_length", "include/ergodic_exploration/grid.hpp::axis_upper"]}
{"id": "C09", "title": "Cell reads: overloads agree, range and unknown cells", "statement": "The three getCell overloads agree; a successful read returns the stored signed byte divided by 100, so it lies in [-1.28, 1.27], the standard 'unknown' value -1 reads as a negative number, and reads are monotone in the stored byte (in binary64 exactly).", "quantifier": "every grid, index, pair of indices and point", "why_tests_cant": "all 256 byte values times all grids", "anchors": ["src/ergodic_exploration/grid.cpp::GridMap::getCell"]}
{"id": "C10", "title": "Collision check: exact characterisation", "statement": "collisionCheck returns true exactly when some in-grid cell that is occupied (value not below the threshold) lies at squared cell distance at most r_col^2 from the robot's cell and on one of the digital circles of integer radius r_bnd..r_max; a digital circle of radius r consists exactly of the offsets (a,b) with -m <= a^2+b^2-r^2 < m where m=max(|a|,|b|), except the diagonal ones with a^2+b^2-r^2 = m-1.", "quantifier": "every grid content, every robot cell, every radii within the 32-bit-safe range, every threshold", "why_tests_cant": "unbounded radii and all grid contents; the algorithm is an error-accumulating loop whose visited set is not apparent from the code", "anchors": ["src/ergodic_exploration/collision.cpp::Collision::collisionCheck", "src/ergodic_exploration/collision.cpp::Collision::search", "src/ergodic_exploration/collision.cpp::Collision::bresenhamCircle", "src/ergodic_exploration/collision.cpp::Collision::checkCell"]}
{"id": "C11", "title": "minDistance, minDirection and collisionCheck agree", "statement": "For the same map and pose: minDistance says crash iff minDirection says crash iff collisionCheck is true; both say obstacle (resp. none) in the same cases, and running the search twice (as minDirection does) does not change its answer.", "quantifier": "every grid, pose and configuration", "why_tests_cant": "relation between three functions over all inputs", "anchors": ["src/ergodic_exploration/collision.cpp::Collision::minDistance", "src/ergodic_exploration/collision.cpp::Collision::minDirection", "src/ergodic_exploration/collision.cpp::Collision::collisionCheck"]}
{"id": "C12", "title": "Nearest obstacle is the minimum over the scanned cells", "statement": "When minDistance reports obstacle, its distance is resolution*sqrt(d2)-boundary_radius where d2 is the smallest squared cell distance of all occupied in-grid cells on the scanned circles, minDirection reports the displacement of one such nearest cell (its squared length is d2*resolution^2), and no scanned occupied cell is within the collision radius. When it reports none there is no occupied scanned cell and the maximum double is returned.", "quantifier": "every grid, pose and configuration", "why_tests_cant": "minimum over all scanned cells for every content", "anchors": ["src/ergodic_exploration/collision.cpp::Collision::minDistance", "src/ergodic_exploration/collision.cpp::Collision::minDirection", "src/ergodic_exploration/collision.cpp::Collision::checkCell"]}
{"id": "C13", "title": "The circle scan terminates without integer overflow", "statement": "For every radius up to 2^14 and every robot cell below 2^30 the circle and radius loops terminate, and no signed int operation overflows; each circle visits every cell of the scan at most once per quadrant.", "quantifier": "every radius and centre in the stated ranges", "why_tests_cant": "termination and overflow over all radii", "anchors": ["src/ergodic_exploration/collision.cpp::Collision::search", "src/ergodic_exploration/collision.cpp::Collision::bresenhamCircle"]}
{"id": "C14", "title": "Walls cannot slip through the scan", "statement": "Any 4-connected chain of occupied in-grid cells that leads from outside a scanned circle to inside it contains a scanned cell; hence if the circle's radius is below the collision radius, collisionCheck is true.", "quantifier": "every chain of cells of any length, every grid, every radius", "why_tests_cant": "digital Jordan property over all paths", "anchors": ["src/ergodic_exploration/collision.cpp::Collision::bresenhamCircle", "src/ergodic_exploration/collision.cpp::Collision::search"]}
{"id": "C15", "title": "Every occupied cell within the collision radius is reported (refuted)", "statement": "A user expects collisionCheck to be true whenever an occupied cell lies within boundary_radius+obstacle_threshold of the robot. The code violates this: cells closer than the boundary radius are never scanned, and between the radii some cells lie on no digital circle (e.g. the diagonal neighbours); such gaps on the diagonals exist at every distance, whatever the radii. What holds: two occupied cells sharing an edge, and cells straight ahead, behind, left or right, are always reported.", "quantifier": "every grid and pose", "why_tests_cant": "the counterexample set is infinite; the positive part (which cells are covered) needs a proof", "anchors": ["src/ergodic_exploration/collision.cpp::Collision::search", "README.md (Future Improvements: aliasing)"]}
{"id": "C16", "title": "Occupancy threshold semantics", "statement": "With a valid threshold unknown cells (negative bytes) are never obstacles; raising the threshold never creates a collision; a threshold above 1.27 - which the constructor accepts up to 100 although cell values are probabilities - disables collision detection entirely.", "quantifier": "every grid, pose, and pair of thresholds", "why_tests_cant": "monotonicity over all inputs", "anchors": ["src/ergodic_exploration/collision.cpp::Collision::Collision", "src/ergodic_exploration/collision.cpp::Collision::checkCell"]}
{"id": "C17", "title": "Collision constructor validation", "statement": "Construction succeeds exactly when not (search_radius < boundary_radius) and not (threshold > 100 or threshold < 0); in binary64 a NaN argument is therefore accepted.", "quantifier": "all binary64 arguments including NaN and infinities", "why_tests_cant": "NaN/inf corner cases over all doubles", "anchors": ["src/ergodic_exploration/collision.cpp::Collision::Collision"]}
{"id": "C18", "title": "Replay buffer keeps the oldest states", "statement": "After any history of appends the memory holds exactly the first buffer_size appended states, in order, under keys 0..n-1; later states are dropped and nothing stored is ever changed.", "quantifier": "every history of appends, every capacity", "why_tests_cant": "unbounded histories", "anchors": ["src/ergodic_exploration/buffer.cpp::ReplayBuffer::append"]}
{"id": "C19", "title": "sampleMemory preserves the predicted trajectory", "statement": "For every history and every outcome of the random generator, sampleMemory returns min(n,batch) stored states followed by exactly the predicted trajectory; if the memory fits in the batch all stored states appear once in order; no lookup can fail.", "quantifier": "every history, batch size, trajectory and random draw in range", "why_tests_cant": "random draws and histories cannot be enumerated", "anchors": ["src/ergodic_exploration/buffer.cpp::ReplayBuffer::sampleMemory"]}
{"id": "C20", "title": "Angle wrapping to [-pi, pi)", "statement": "normalize_angle_PI returns a value in [-pi,pi) that differs from the input by an integer multiple of 2*pi; it is idempotent and is the identity on [-pi,pi). In doubles the half-open range is not kept; for angles up to 2^n (3 <= n <= 40) the result is finite and meets both up to 2^(n-47).", "quantifier": "every real angle; every double up to 2^40", "why_tests_cant": "continuum of angles", "anchors": ["include/ergodic_exploration/numerics.hpp::normalize_angle_PI"]}
{"id": "C21", "title": "Angle wrapping to [0, 2pi)", "statement": "normalize_angle_2PI returns a value in [0,2pi) that differs from the input by an integer multiple of 2*pi (so, contrary to its comment, it never returns a negative angle). In doubles the half-open range is not kept; for angles up to 2^n (3 <= n <= 40) the result is finite, not negative and meets both up to 2^(n-47).", "quantifier": "every real angle; every double up to 2^40", "why_tests_cant": "continuum of angles", "anchors": ["include/ergodic_exploration/numerics.hpp::normalize_angle_2PI"]}
{"id": "C22", "title": "Yaw extraction inverts the yaw quaternion", "statement": "For every yaw in (-pi,pi], getYaw applied to the quaternion of a pure yaw rotation, scaled by any non-zero factor (including -1), returns that yaw.", "quantifier": "every yaw and every non-zero scale", "why_tests_cant": "continuum of inputs and branch conditions", "anchors": ["include/ergodic_exploration/numerics.hpp::getYaw"]}
{"id": "C23", "title": "Rigid transforms form a group; the inverse helper does not invert (refuted)", "statement": "transform2d composes like planar rigid motions and preserves distances. transform2dInv is expected to return the inverse, but it passes its arguments in the wrong order and the product with the original is not the identity.", "quantifier": "every pose", "why_tests_cant": "algebraic law over all poses", "anchors": ["include/ergodic_exploration/numerics.hpp::transform2d", "include/ergodic_exploration/numerics.hpp::transform2dInv"]}
{"id": "C24", "title": "integrate_twist is the exact motion of a constant body twist", "statement": "For |w| >= 1e-12 integrate_twist is the exact solution at time dt of the omnidirectional kinematic model under a constant body twist, integrating for s and then t equals integrating for s+t, heading changes by w*dt; for |w| < 1e-12 it is exact straight-line motion with the heading unchanged.", "quantifier": "every pose, twist and duration", "why_tests_cant": "differential equation over a continuum", "anchors": ["include/ergodic_exploration/numerics.hpp::integrate_twist"]}
{"id": "C25", "title": "validate_control accepts exactly collision-free rollouts", "statement": "validate_control returns true exactly when none of the poses reached after 1..floor(|horizon/dt|) integration steps is a collision; a shorter horizon never turns an accepted control into a rejected one; the initial pose itself is not checked.", "quantifier": "every map, state, twist, step and horizon", "why_tests_cant": "all rollouts of any length", "anchors": ["include/ergodic_exploration/numerics.hpp::validate_control"]}
{"id": "C26", "title": "constTwistPath shows the validated rollout", "statement": "The i-th position of constTwistPath equals the i-th pose checked by validate_control, its orientation is a unit quaternion whose yaw is that pose's heading, and the path has floor(|horizon/dt|) entries.", "quantifier": "every state, twist, step and horizon", "why_tests_cant": "the two loops normalise the heading differently; equality needs periodicity over all inputs", "anchors": ["include/ergodic_exploration/numerics.hpp::constTwistPath", "include/ergodic_exploration/numerics.hpp::validate_control"]}
{"id": "C27", "title": "Number of rollout steps", "statement": "The step count is the truncated quotient |horizon/dt|; for exact arithmetic steps*dt <= |horizon| < (steps+1)*dt. In binary64 the quotient is rounded first, so e.g. horizon 0.3 with dt 0.1 gives 2 steps, and dt = 0 is undefined behaviour.", "quantifier": "every horizon and dt; all binary64 values", "why_tests_cant": "rounding of the quotient", "anchors": ["include/ergodic_exploration/numerics.hpp::validate_control", "include/ergodic_exploration/integrator.hpp::RungeKutta::solve", "src/ergodic_exploration/dynamic_window.cpp::DynamicWindow::DynamicWindow"]}
{"id": "C28", "title": "Cell entropy", "statement": "For 1e-12 <= p <= 1-1e-12 entropy is symmetric in p and 1-p, positive, and at most ln 2; it is 0.7 for unknown (negative) cells and 1e-3 at 0 and 1. In double precision, with a logarithm accurate to 2^-46, the entropy of a known cell is within 2^-44 of the exact one (1e-3 near 0 and 1) and unknown cells still rank above all known ones.", "quantifier": "every probability", "why_tests_cant": "continuum; maximum needs calculus", "anchors": ["include/ergodic_exploration/numerics.hpp::entropy"]}
{"id": "C29", "title": "Distance and polar conversion", "statement": "distance is a metric (non-negative, zero only for equal points, symmetric, triangle inequality); polar2Cartesian returns a point at distance |range| from the origin.", "quantifier": "every pair/triple of points", "why_tests_cant": "continuum", "anchors": ["include/ergodic_exploration/numerics.hpp::distance", "include/ergodic_exploration/numerics.hpp::polar2Cartesian"]}
{"id": "C30", "title": "Ray tracing visits exactly the digital segment", "statement": "rayTrace updates, each exactly once, the start cell and one cell per step of the longer axis strictly between start and end, namely the cell nearest to the ideal line (ties towards the lower endpoint); it never updates the end cell, stays in the bounding box of the two endpoints and makes max(|dx|,|dy|) updates.", "quantifier": "every pair of cells in all octants", "why_tests_cant": "all slopes and lengths", "anchors": ["src/ergodic_exploration/mapping.cpp::OccupancyMapper::rayTrace", "src/ergodic_exploration/mapping.cpp::OccupancyMapper::lineLow", "src/ergodic_exploration/mapping.cpp::OccupancyMapper::lineHigh", "src/ergodic_exploration/mapping.cpp::OccupancyMapper::lineDiag"]}
{"id": "C31", "title": "Map update frame condition", "statement": "updateMap returns false exactly when the robot is outside the map, and then leaves the map untouched; otherwise it changes only cells on the rays from the robot cell to the in-map end cells of the accepted beams, and never changes the geometry or the number of cells.", "quantifier": "every map, pose and scan", "why_tests_cant": "all scans of any length", "anchors": ["src/ergodic_exploration/mapping.cpp::OccupancyMapper::updateMap"]}
{"id": "C32", "title": "Occupancy values stay within 0..100", "statement": "Starting from a map whose cells are all in 0..100, every sequence of scans leaves all cells in 0..100; a cell equal to 0 stays 0 forever and a cell equal to 100 stays 100 forever (certainty is absorbing).", "quantifier": "every history of scans; any exp/log implementation obeying the C special-value rules", "why_tests_cant": "unbounded histories", "anchors": ["src/ergodic_exploration/mapping.cpp::OccupancyMapper::updateCell"]}
{"id": "C33", "title": "Unknown cells are updated without undefined behaviour (refuted)", "statement": "Maps from SLAM contain unknown cells (-1). Updating such a cell takes the logarithm of a negative number and converts the resulting NaN to int8, which is undefined behaviour.", "quantifier": "every map containing an unknown cell on a ray", "why_tests_cant": "undefined behaviour cannot be tested", "anchors": ["src/ergodic_exploration/mapping.cpp::OccupancyMapper::updateCell", "src/ergodic_exploration/mapping.cpp::prob2LogOdds"]}
{"id": "C34", "title": "Observations move cells in the right direction", "statement": "For a cell with value 1..99, a free observation strictly lowers it and an occupied observation never lowers it; the new value is the truncated Bayesian product of the cell's and the sensor's odds.", "quantifier": "every cell value, exact arithmetic", "why_tests_cant": "combination of log/exp over all values", "anchors": ["src/ergodic_exploration/mapping.cpp::OccupancyMapper::updateCell", "src/ergodic_exploration/mapping.cpp::logOdds2Prob", "src/ergodic_exploration/mapping.cpp::prob2LogOdds"]}
{"id": "C35", "title": "Beam gating", "statement": "A beam whose range is above range_max or below range_min never changes the map, and the angle of every later beam is still angle_min + i*angle_increment; a NaN range is not gated and leads to undefined behaviour.", "quantifier": "every scan", "why_tests_cant": "all scans, NaN behaviour", "anchors": ["src/ergodic_exploration/mapping.cpp::OccupancyMapper::updateMap"]}
{"id": "C36", "title": "Fourier basis enumeration and bounds", "statement": "The basis numbers enumerate every pair (k1,k2) of 0..n-1 exactly once, the first is (0,0); every basis value lies in [-1,1], the first is 1; the frequency weights lie in (0,1], the first is 1, and they decrease with |k|.", "quantifier": "every number of basis functions and every point", "why_tests_cant": "all n and a continuum of points", "anchors": ["src/ergodic_exploration/basis.cpp::Basis::Basis", "src/ergodic_exploration/basis.cpp::Basis::fourierBasis"]}
{"id": "C37", "title": "Basis gradient is the derivative", "statement": "gradFourierBasis returns the partial derivatives of fourierBasis in x and y, and its normal component vanishes on the boundary of the domain.", "quantifier": "every point, domain size and number of basis functions", "why_tests_cant": "derivative over a continuum", "anchors": ["src/ergodic_exploration/basis.cpp::Basis::gradFourierBasis", "src/ergodic_exploration/basis.cpp::Basis::fourierBasis"]}
{"id": "C38", "title": "Coefficients are averages", "statement": "Trajectory coefficients are the arithmetic mean of the basis over the columns: each lies in [-1,1], the first is 1, and they do not depend on the order of the columns; spatial coefficients of a normalised distribution have the same bounds and first coefficient 1.", "quantifier": "every non-empty trajectory and every normalised target", "why_tests_cant": "any number of samples", "anchors": ["src/ergodic_exploration/basis.cpp::Basis::trajCoeff", "src/ergodic_exploration/basis.cpp::Basis::spatialCoeff"]}
{"id": "C39", "title": "Target evaluation", "statement": "evaluate is the sum of the Gaussians, each in (0,1] with value 1 exactly at its mean; evaluating at a point with a translation equals evaluating at the translated point without one; the value does not depend on the order of the Gaussians.", "quantifier": "every target list, point and translation", "why_tests_cant": "continuum", "anchors": ["src/ergodic_exploration/target.cpp::Target::evaluate", "include/ergodic_exploration/target.hpp::Gaussian::operator()"]}
{"id": "C40", "title": "Filled target is a probability distribution", "statement": "For a non-empty target and a non-empty grid fill returns non-negative values that sum to 1; for an empty target it divides zero by zero (NaN in binary64).", "quantifier": "every target and grid", "why_tests_cant": "sum over arbitrarily many cells", "anchors": ["src/ergodic_exploration/target.cpp::Target::fill"]}
{"id": "C41", "title": "Adding and deleting targets", "statement": "After any sequence of additions and valid deletions the target list is the list obtained by appending and removing at the index; deleting at an index not below the current size is undefined behaviour.", "quantifier": "every operation history", "why_tests_cant": "histories; UB", "anchors": ["src/ergodic_exploration/target.cpp::Target::addGaussian", "src/ergodic_exploration/target.cpp::Target::deleteGaussian"]}
{"id": "C42", "title": "Markers show the targets' extents (refuted)", "statement": "There is one marker per Gaussian, with distinct ids, at its mean. A user expects the marker's x and y extents to follow the x and y standard deviations; the code uses the sorted eigenvalues of the covariance, so the axes are swapped when sigma_x > sigma_y.", "quantifier": "every target list", "why_tests_cant": "all sigmas", "anchors": ["src/ergodic_exploration/target.cpp::Target::markers"]}
{"id": "C43", "title": "Jacobians are the derivatives of the dynamics", "statement": "For Cart, SimpleCart, Mecanum and Omni, fdx and fdu are the partial derivatives of the kinematic function with respect to state and control.", "quantifier": "every state, control and geometry parameter", "why_tests_cant": "continuum", "anchors": ["include/ergodic_exploration/models/cart.hpp::Cart::fdx", "include/ergodic_exploration/models/cart.hpp::Cart::fdu", "include/ergodic_exploration/models/cart.hpp::SimpleCart::fdx", "include/ergodic_exploration/models/cart.hpp::SimpleCart::fdu", "include/ergodic_exploration/models/omni.hpp::Mecanum::fdx", "include/ergodic_exploration/models/omni.hpp::Mecanum::fdu", "include/ergodic_exploration/models/omni.hpp::Omni::fdx", "include/ergodic_exploration/models/omni.hpp::Omni::fdu"]}
{"id": "C44", "title": "Wheel models agree with the body-twist model", "statement": "Cart and Mecanum kinematics equal the omnidirectional body-twist kinematics applied to wheels2Twist, SimpleCart equals it with zero lateral velocity, and wheels2Twist of Mecanum inverts the wheel Jacobian.", "quantifier": "every state and wheel speeds", "why_tests_cant": "continuum", "anchors": ["include/ergodic_exploration/models/cart.hpp::Cart::wheels2Twist", "include/ergodic_exploration/models/omni.hpp::Mecanum::wheels2Twist"]}
{"id": "C45", "title": "SimpleCart rejects lateral velocity", "statement": "The SimpleCart model throws exactly when |vy| >= 1e-12 (in binary64 also for NaN).", "quantifier": "all controls including NaN", "why_tests_cant": "NaN", "anchors": ["include/ergodic_exploration/models/cart.hpp::SimpleCart::operator()"]}
{"id": "C46", "title": "RK4 forward simulation accuracy", "statement": "For twist models the RK4 step changes the heading by exactly w*dt and its position differs from the exact constant-twist motion by at most |v|*|dt|*(w*dt)^4/2880; the solution has floor(|horizon/dt|) columns, column i being the state after step i+1 with the heading wrapped to [-pi,pi).", "quantifier": "every state, control signal, step size and length", "why_tests_cant": "error bound over a continuum", "anchors": ["include/ergodic_exploration/integrator.hpp::RungeKutta::step", "include/ergodic_exploration/integrator.hpp::RungeKutta::solve"]}
{"id": "C47", "title": "Co-state integration is exact and correctly ordered", "statement": "For the modelled dynamics one backward RK4 step of the co-state is the exact solution of the co-state equation with frozen coefficients, and the returned matrix is in forward time order: column i depends only on columns i.. of the inputs and satisfies the backward recurrence from the terminal condition.", "quantifier": "every trajectory, gradient and length", "why_tests_cant": "ODE over a continuum; recursion of any length", "anchors": ["include/ergodic_exploration/integrator.hpp::RungeKutta::solve (co-state)", "include/ergodic_exploration/integrator.hpp::RungeKutta::step (co-state)", "include/ergodic_exploration/ergodic_control.hpp::rhodot"]}
{"id": "C48", "title": "RK45 integrates a constant derivative exactly (refuted)", "statement": "Any consistent Runge-Kutta scheme advances a constant derivative c by exactly h*c. RungeKutta45::step does not: its fourth weight is 2197/4101 instead of 2197/4104, so the step is off and the reported error estimate has a floor proportional to |c| independent of h, below which no step is ever accepted.", "quantifier": "every constant derivative and step size", "why_tests_cant": "tests cannot cover every tolerance", "anchors": ["include/ergodic_exploration/integrator.hpp::RungeKutta45::step", "include/ergodic_exploration/integrator.hpp::RungeKutta45::solve"]}
{"id": "C49", "title": "RK45 terminates within its iteration budget; its storage can overflow (refuted)", "statement": "RungeKutta45::solve performs at most max_iter+1 iterations for every model and tolerance. Its buffer of floor(horizon/hmin)+1 columns is expected to suffice, but accepting every step with hmax=hmin not dividing the horizon writes one column past the end. With hmin > hmax the step size control is undefined behaviour (std::clamp) and no call returns a trajectory.", "quantifier": "every model, tolerance and step limits", "why_tests_cant": "all adaptive step sequences", "anchors": ["include/ergodic_exploration/integrator.hpp::RungeKutta45::solve"]}
{"id": "C50", "title": "Dynamic window returns the best collision-free sample", "statement": "If control reports success, the returned twist is one of the sampled twists, its rollout is collision free at every step, and no sampled twist has smaller cost; if it reports failure the twist is zero and every sampled twist collides or has a cost that is not below the maximum double.", "quantifier": "every map, state, reference, window and sample counts; any arithmetic with a transitive order (reals and binary64)", "why_tests_cant": "argmin over all windows and maps", "anchors": ["src/ergodic_exploration/dynamic_window.cpp::DynamicWindow::control", "src/ergodic_exploration/dynamic_window.cpp::DynamicWindow::objective"]}
{"id": "C51", "title": "Sampled twists respect velocity and acceleration limits", "statement": "If the window is non-empty on each axis (current velocity within reach of the limits) every sample lies within the velocity limits and within acc*acc_dt of the current twist (exact arithmetic), the extreme samples being the window ends.", "quantifier": "every configuration, current twist and sample counts", "why_tests_cant": "all sample counts", "anchors": ["src/ergodic_exploration/dynamic_window.cpp::DynamicWindow::window"]}
{"id": "C52", "title": "Velocity limits are never exceeded (refuted)", "statement": "A user expects every twist from the dynamic window to respect the velocity limits. When the current velocity is outside the reachable range the window is inverted and samples exceed the limit; in the cart node (lateral limits 0) a positive odometry vy is copied to the output; and in binary64 the accumulated sum can exceed the upper limit by rounding; but if the window is not inverted, no twist returned by either overload exceeds a limit by more than about n*2^-51 of it, n being the number of samples (up to 2^20).", "quantifier": "every configuration and odometry", "why_tests_cant": "depends on noise and rounding", "anchors": ["src/ergodic_exploration/dynamic_window.cpp::DynamicWindow::window", "src/exploration_cart_node.cpp::main"]}
{"id": "C53", "title": "Zero sample counts are replaced by one", "statement": "The constructor turns a zero sample count into one, so at least one twist is always evaluated and the number of evaluated twists is the product of the counts.", "quantifier": "every sample count", "why_tests_cant": "all counts", "anchors": ["src/ergodic_exploration/dynamic_window.cpp::DynamicWindow::DynamicWindow", "src/ergodic_exploration/dynamic_window.cpp::DynamicWindow::control"]}
{"id": "C54", "title": "Reference-trajectory index stays in range", "statement": "In the trajectory objective the column index is within the reference trajectory whenever the window horizon does not exceed the reference duration; for a reference of n columns lasting tf and a safe rollout of s steps of dt the access is out of bounds exactly when (n-1)(s-1)dt >= (n-1/2)tf, and an empty reference is undefined behaviour. In binary64 too the overload with a reference trajectory never throws when the horizon (up to 2^24 steps) does not exceed the reference duration.", "quantifier": "every trajectory length and step sizes", "why_tests_cant": "all lengths", "anchors": ["src/ergodic_exploration/dynamic_window.cpp::DynamicWindow::objective"]}
{"id": "C55", "title": "Ergodic controls respect the control limits", "statement": "After any sequence of controller calls every column of the control signal lies within [umin,umax] (or is zero), hence so does every returned twist; in binary64 a component is within the limits or NaN. The limits themselves are not checked: with an upper limit below the lower one every call of control ends in undefined behaviour or an exception.", "quantifier": "every history of calls, maps, poses and targets", "why_tests_cant": "unbounded histories", "anchors": ["include/ergodic_exploration/ergodic_control.hpp::ErgodicControl::control", "include/ergodic_exploration/ergodic_control.hpp::ErgodicControl::updateControl"]}
{"id": "C56", "title": "The cart controller never trips the lateral-velocity check (refuted in binary64)", "statement": "With umin(1)=umax(1)=0 (the cart node's configuration) no sequence of controller calls makes SimpleCart throw: true in exact arithmetic. In binary64 it throws only if a control column holds NaN, and that happens: a target whose density underflows on the whole map makes the first call return NaN and the second throw.", "quantifier": "every history of calls", "why_tests_cant": "histories", "anchors": ["include/ergodic_exploration/ergodic_control.hpp::ErgodicControl::control", "include/ergodic_exploration/models/cart.hpp::SimpleCart::operator()", "src/exploration_cart_node.cpp::main"]}
{"id": "C57", "title": "Receding horizon shape", "statement": "Every successful controller call keeps the control signal at floor(|horizon/dt|) columns, warm-starts from the previous signal shifted by one with a zero last column, and optTraj/path are the forward simulation of the current signal from the last pose.", "quantifier": "every history of calls", "why_tests_cant": "histories", "anchors": ["include/ergodic_exploration/ergodic_control.hpp::ErgodicControl::control", "include/ergodic_exploration/ergodic_control.hpp::ErgodicControl::optTraj", "include/ergodic_exploration/ergodic_control.hpp::ErgodicControl::path"]}
{"id": "C58", "title": "Target coefficients follow the map and target (refuted)", "statement": "Users expect the controller to track the target set by setTarget on the current map. The coefficients are recomputed exactly when the map's width or height changed by 1e-12 or more; a new target, or a map of equal size at a different origin, leaves stale coefficients.", "quantifier": "every sequence of setTarget/configTarget/control calls", "why_tests_cant": "histories", "anchors": ["include/ergodic_exploration/ergodic_control.hpp::ErgodicControl::configTarget", "include/ergodic_exploration/ergodic_control.hpp::ErgodicControl::setTarget"]}
{"id": "C59", "title": "Ergodic gradient is the gradient of the ergodic metric", "statement": "The state gradient used by the controller is N/2 times the partial derivative of the weighted squared coefficient difference with respect to each trajectory point (times the exploration weight), with zero heading component.", "quantifier": "every trajectory, target coefficients and domain", "why_tests_cant": "derivative of a sum over any number of points", "anchors": ["include/ergodic_exploration/ergodic_control.hpp::ErgodicControl::gradErgodicMetric"]}
{"id": "C60", "title": "Barrier gradient", "statement": "The barrier term is the derivative of 25 times the squared violation of the margin band of width 0.05 inside the domain; it vanishes inside the band-free interior and points outward outside (so the descent pushes the robot inward).", "quantifier": "every trajectory and domain", "why_tests_cant": "continuum", "anchors": ["include/ergodic_exploration/ergodic_control.hpp::ErgodicControl::gradBarrier"]}
{"id": "C61", "title": "Control update minimises the Hamiltonian over the box", "statement": "For a diagonal positive control weight the updated control at each time is the unique minimiser of 1/2 u'Ru + rho'Bu over the box [umin,umax].", "quantifier": "every co-state, state and limits", "why_tests_cant": "continuum", "anchors": ["include/ergodic_exploration/ergodic_control.hpp::ErgodicControl::updateControl"]}
{"id": "C62", "title": "Degenerate horizons", "statement": "The controller constructor rejects exactly the one-step horizon; a horizon shorter than dt (zero steps) is accepted but then every call to control throws.", "quantifier": "every dt and horizon", "why_tests_cant": "all values", "anchors": ["include/ergodic_exploration/ergodic_control.hpp::ErgodicControl::ErgodicControl", "include/ergodic_exploration/ergodic_control.hpp::ErgodicControl::control"]}
{"id": "C63", "title": "No command before map and pose are known", "statement": "No twist is published before at least one map message and at least one successful transform lookup; from then on every completed loop iteration publishes exactly one twist.", "quantifier": "every interleaving of callbacks, lookups and loop steps", "why_tests_cant": "all schedules", "anchors": ["include/ergodic_exploration/exploration.hpp::Exploration::control"]}
{"id": "C64", "title": "Every published twist was checked or is zero", "statement": "In every execution each published twist either passed validate_control on the map read at its check, or was returned by the dynamic window with success (hence collision-free over its horizon on the map it read), or is the zero twist.", "quantifier": "every interleaving of map/odometry callbacks with the loop", "why_tests_cant": "all schedules and maps", "anchors": ["include/ergodic_exploration/exploration.hpp::Exploration::control", "include/ergodic_exploration/numerics.hpp::validate_control", "src/ergodic_exploration/dynamic_window.cpp::DynamicWindow::control"]}
{"id": "C65", "title": "Dynamic-window following is bounded and revalidated", "statement": "After the dynamic window takes over, its twist is repeated for at most dwa_steps-1 further iterations, each of which re-validates it; then the ergodic controller replans. If dwa_steps is 0 the counter only matches when the unsigned int wraps, after 2^32 iterations: until then following goes on as long as no collision is predicted.", "quantifier": "every execution", "why_tests_cant": "unbounded executions", "anchors": ["include/ergodic_exploration/exploration.hpp::Exploration::control"]}
{"id": "C66", "title": "A failed follow-up always triggers replanning", "statement": "If validation fails while following, whether or not the dynamic window then finds a twist, or if the dynamic window finds nothing for a plan, the next iteration calls the ergodic controller; when nothing is found the published twist is zero.", "quantifier": "every execution", "why_tests_cant": "all schedules", "anchors": ["include/ergodic_exploration/exploration.hpp::Exploration::control"]}
{"id": "C67", "title": "Published twists are safe on the current map (refuted)", "statement": "Because map callbacks run concurrently without locking, the map can change between validation and publication; there are schedules in which the published twist collides on the map current at publication, and schedules in which a reader observes a half-updated map whose in-bounds read throws.", "quantifier": "every schedule of the callback thread", "why_tests_cant": "needs an adversarial interleaving", "anchors": ["include/ergodic_exploration/exploration.hpp::Exploration::mapCallback", "include/ergodic_exploration/exploration.hpp::Exploration::control", "src/ergodic_exploration/grid.cpp::GridMap::update"]}
{"id": "C68", "title": "Stale poses", "statement": "Once a transform has been obtained, later lookup failures keep the last pose: the loop keeps planning and publishing with it, and only successful lookups add a state to the replay memory.", "quantifier": "every schedule of lookup failures", "why_tests_cant": "all schedules", "anchors": ["include/ergodic_exploration/exploration.hpp::Exploration::control"]}
{"id": "C69", "title": "Rays cover only the segment from the sensor to the hit (refuted)", "statement": "A beam should mark as free only cells between the sensor and its end point. The code traces every ray from the robot's base cell, so with a displaced sensor it frees cells the beam never crossed; the base cell itself receives one free observation per accepted beam whatever the mounting.", "quantifier": "every map, pose, mounting transform and scan", "why_tests_cant": "a test with the sensor mounted at the base cannot show the difference, and the claim is about all mountings", "anchors": ["src/ergodic_exploration/mapping.cpp::OccupancyMapper::updateMap"]}
{"id": "C70", "title": "Repeated free observations are irreversible", "statement": "At most 15 free observations take any cell value 0..99 to 0 (exact arithmetic), and a cell with value 0 is never changed again by any later history of scans, occupied observations included.", "quantifier": "every cell value; every later history of scans", "why_tests_cant": "irreversibility speaks about all later histories", "anchors": ["src/ergodic_exploration/mapping.cpp::OccupancyMapper::updateCell"]}
{"id": "C71", "title": "Controller calls are defined", "statement": "On any reachable controller with at least two steps, ordered limits and a map that has an extent and fewer than 2^32 coefficient points, control returns a twist for every pose, target, replay memory and random draw. If the first map has no extent the Fourier coefficients are read uninitialised.", "quantifier": "every history of calls, map, pose and draw", "why_tests_cant": "Tests run a few maps and poses; the claim excludes every throw and undefined read over all histories.", "anchors": ["include/ergodic_exploration/ergodic_control.hpp::ErgodicControl::control", "include/ergodic_exploration/ergodic_control.hpp::ErgodicControl::configTarget", "include/ergodic_exploration/buffer.hpp::ReplayBuffer::sampleMemory"]}
{"id": "C72", "title": "A controller call solves the optimality system", "statement": "Every successful control call computes, along the simulated warm start, states in the map frame, the gradient of the ergodic metric including the remembered states (all of them in order, or those with the drawn numbers if they are more than a batch), the barrier gradient, co-states that follow the exact backward motion from zero, and new controls each of which uniquely minimises the Hamiltonian over the limits; it returns the first.", "quantifier": "every history of calls, map, pose, target and draw", "why_tests_cant": "Relates quantities defined by derivatives and differential equations, for all inputs.", "anchors": ["include/ergodic_exploration/ergodic_control.hpp::ErgodicControl::control", "include/ergodic_exploration/integrator.hpp::RungeKutta::solve", "include/ergodic_exploration/ergodic_control.hpp::ErgodicControl::updateControl"]}
{"id": "C73", "title": "Predictions move no farther than speed times time", "statement": "For every twist, the true motion between two instants and every predicted pose are at most the planar speed times the elapsed time away from where they started. At any time up to the horizon the motion is within half a time step's travel of one of the poses at whole steps.", "quantifier": "every pose, twist, time step and horizon (real arithmetic)", "why_tests_cant": "A bound over a continuum of times and twists; the arc is curved and uses trigonometric functions.", "anchors": ["include/ergodic_exploration/numerics.hpp::integrate_twist", "include/ergodic_exploration/numerics.hpp::validate_control"]}
{"id": "C74", "title": "Predictions that leave the map", "statement": "validate_control on a prediction whose first poses are free and which then goes left of or below the map casts a negative number to unsigned, which is undefined behaviour; a pose beyond the right or upper edge by more than the search radius is reported free. Hence a free map does not ensure that the node's loop completes.", "quantifier": "every map, pose, twist, step and horizon", "why_tests_cant": "Undefined behaviour shows as whatever the compiler chose; tests drive in the middle of the map.", "anchors": ["include/ergodic_exploration/numerics.hpp::validate_control", "src/ergodic_exploration/grid.cpp::GridMap::world2Grid", "src/ergodic_exploration/collision.cpp::Collision::collisionCheck"]}
{"id": "C75", "title": "Published twists respect the velocity limits", "statement": "If standing still is within the limits and every odometry message is a velocity from which each limit can be met within the acceleration time, every twist the node ever publishes is within the node's velocity limits. Without the assumption on odometry it is false: the cart node can publish a sideways velocity. In binary64, for finite limits, every published velocity is a NaN or within its limits but for the rounding of the samples (relative excess about n*2^-51).", "quantifier": "every parameter set, interleaving of callbacks, map, pose, random draw and number of iterations, cart and omni", "why_tests_cant": "An invariant over unbounded executions with concurrent callbacks.", "anchors": ["include/ergodic_exploration/exploration.hpp::Exploration::control", "src/ergodic_exploration/dynamic_window.cpp::DynamicWindow::window", "include/ergodic_exploration/ergodic_control.hpp::ErgodicControl::updateControl"]}
{"id": "C76", "title": "The reference is long enough for the window", "statement": "The node accepts a window horizon equal to the controller horizon, but then following the optimal trajectory can read a column past its end and throw. If the window ends at least one controller step before the controller horizon and the predicted poses can be checked, following always returns.", "quantifier": "every parameter set, history, map, pose and velocity", "why_tests_cant": "The failure depends on how two time steps divide two horizons.", "anchors": ["src/ergodic_exploration/dynamic_window.cpp::DynamicWindow::control", "src/ergodic_exploration/dynamic_window.cpp::DynamicWindow::objective", "src/exploration_cart_node.cpp::main"]}
{"id": "C77", "title": "Every iteration completes", "statement": "With positive time steps, one controller step to spare, limits that contain standing still, recoverable odometry, and maps that come from whole well-sized messages and leave room around the pose for everything that is predicted, an iteration of the loop neither throws nor meets undefined behaviour. When a map has been received and no map callback is half way, the map is that of one of the messages.", "quantifier": "every parameter set, history, interleaving, pose, message and draw, cart and omni", "why_tests_cant": "Excludes every exception and undefined operation over all reachable states.", "anchors": ["include/ergodic_exploration/exploration.hpp::Exploration::control", "include/ergodic_exploration/exploration.hpp::Exploration::mapCallback", "include/ergodic_exploration/ergodic_control.hpp::ErgodicControl::control", "src/ergodic_exploration/dynamic_window.cpp::DynamicWindow::control"]}
{"id": "C78", "title": "Clearance between the checked poses", "statement": "If validate_control accepts, then at every time from half a step on, not only at the sampled poses, no connected wall of occupied cells reaches from outside r + 2 cells to inside r - 2 cells of the robot, with half a step's travel subtracted inside and added outside, for every whole radius r that is scanned and smaller than the collision radius.", "quantifier": "every map, body, pose, twist, horizon, instant and wall (real arithmetic)", "why_tests_cant": "Continuous time and arbitrary walls.", "anchors": ["include/ergodic_exploration/numerics.hpp::validate_control", "src/ergodic_exploration/collision.cpp::Collision::collisionCheck", "src/ergodic_exploration/collision.cpp::Collision::bresenhamCircle"]}
{"id": "C79", "title": "Exactly which parameters start the node", "statement": "With nonzero time steps and a nonnegative number of basis functions the node reaches its loop exactly if enough control weights are given, no target has a zero deviation, the search radius is at least the boundary radius, the threshold is in range, the step counts fit 32 bits, the controller does not have exactly one step, the squared number of basis functions fits an int and the window horizon is at most the controller horizon.", "quantifier": "every parameter set, cart and omni (real arithmetic)", "why_tests_cant": "An equivalence over all parameter sets.", "anchors": ["src/exploration_cart_node.cpp::main", "src/exploration_omni_node.cpp::main", "include/ergodic_exploration/ergodic_control.hpp::ErgodicControl::ErgodicControl", "src/ergodic_exploration/collision.cpp::Collision::Collision"]}
{"id": "C80", "title": "What RungeKutta45 returns for a motion with constant velocity", "statement": "If the derivative is constant along the line of motion and the adaptive solver returns true, the result has one column per time step, at times spread evenly from 0 to the horizon (the first column is the initial state, the last is at the horizon, unlike RungeKutta whose first column is one step later), every column on the true line but 1+delta times as far along as it should be; the same holds backwards for co-states. With a fixed step of a k-th of the horizon the call returns a trajectory for k >= 4 and throws for k <= 3, because a quartic cannot be fitted to fewer than five points.", "quantifier": "every constant velocity, initial state, step limits, tolerance, horizon and time step, and every least-squares fitting routine (real arithmetic)", "why_tests_cant": "An equality for all velocities and step sequences; a test sees single trajectories, and the existing tests do not use RungeKutta45.", "anchors": ["include/ergodic_exploration/integrator.hpp::RungeKutta45::solve", "include/ergodic_exploration/integrator.hpp::RungeKutta45::step"]}
{"id": "C81", "title": "Commanded motions keep clear of walls between the checked poses", "statement": "In every execution, every twist the node publishes either is zero, so that the robot stands still, or was found free of collisions at discrete poses; and in the second case the exact motion under that twist from the pose the node used, at every instant from half a time step on until the end of the horizon that was checked, keeps the clearance of C78 from every wall of occupied cells on the map that was read for the check (validation step and horizon, or those of the dynamic window).", "quantifier": "every execution with any interleaving of callbacks, every map, pose, twist, instant, wall and radius (real arithmetic)", "why_tests_cant": "Quantifies over executions, over a continuum of instants and over all walls.", "anchors": ["include/ergodic_exploration/exploration.hpp::Exploration::control", "include/ergodic_exploration/numerics.hpp::validate_control", "src/ergodic_exploration/dynamic_window.cpp::DynamicWindow::control"]}
{"id": "C82", "title": "The points RungeKutta45 fits are joined by accepted steps", "statement": "When the adaptive solver succeeds, the points it fits start with the initial state at time 0 and end at the horizon (within the 1e-12 of almost_equal, never past it); each point follows from the one before by one call of step with the control column nearest to its time and an estimated error at most the tolerance; every step is at most the upper limit and at least the lower limit unless it is the last one; there are at most horizon/h_min + 1 points. The co-state solver has the same guarantees from the horizon down to time 0. The next step is 0.84 times the fourth root of tolerance/error times the last one, clamped to the limits.", "quantifier": "every dynamics, control sequence, tolerance, ordered positive step limits and horizon no shorter than the first step (real arithmetic)", "why_tests_cant": "Describes every accepted step of an adaptive run for every dynamics.", "anchors": ["include/ergodic_exploration/integrator.hpp::RungeKutta45::solve", "include/ergodic_exploration/integrator.hpp::RungeKutta45::step"]}
{"id": "C83", "title": "One step of RungeKutta45 on a linear equation", "statement": "On x' = lambda x a step of size h multiplies the state by the Taylor polynomial of exp(z), z = h lambda, of degree 4 plus z^5/104, as Fehlberg's formula does, plus delta (z + 12/13 z^2 + 72/169 z^3 + 513/2197 z^4), the effect of the weight 2197/4101; and the error estimate is the size of the difference to the fifth order formula, divided by h. Backwards the same with z = -h lambda. So every coefficient of the scheme except that weight is Fehlberg's, up to what linear equations reveal.", "quantifier": "every lambda, state and nonzero step (real arithmetic)", "why_tests_cant": "A polynomial identity in the step; a test compares numbers with a tolerance that hides small coefficient errors.", "anchors": ["include/ergodic_exploration/integrator.hpp::RungeKutta45::step"]}
{"id": "C84", "title": "What the loop can see of a map or odometry message being received", "statement": "At any moment the shared map, velocity and flag hold the effects of whole messages in the order of their arrival, except that the one callback which may be running has assigned the first k members of its message: of a map, in the order width, height, resolution, origin x, origin y, upper limits, data, the rest still being those of the previous map; of the odometry, the first components. The upper limits are those of the new message once assigned. The flag map_received_ is set only after a complete map. Whatever the loop reads in any iteration has this form.", "quantifier": "every sequence of messages and every interleaving of the callback thread with the loop; any arithmetic", "why_tests_cant": "Quantifies over interleavings of two threads without synchronisation.", "anchors": ["include/ergodic_exploration/exploration.hpp::Exploration::mapCallback", "include/ergodic_exploration/exploration.hpp::Exploration::odomCallback", "src/ergodic_exploration/grid.cpp::GridMap::update"]}
{"id": "C85", "title": "How the nodes read their parameters", "statement": "Parameters on the parameter server are used under their names; those that are absent, except the targets, have the documented defaults; counts are taken modulo 2^32 after conversion to int; a count given as a double is rounded to the nearest integer if positive and downwards if negative; buffer_size is read as a double, and at most -1 or at least 2^32 it is undefined behaviour. Writing a number as an int or as a double makes no difference, except - contrary to expectation - in the coordinates of means and sigmas: there the first integer ends the program with an XmlRpcException. Fewer sigmas than means read a double that was never set (undefined). No means end the program with an XmlRpcException.", "quantifier": "every content of the parameter server as described; both nodes; real arithmetic and binary64 (int/double equivalence and rounding over the reals)", "why_tests_cant": "The parameters are unbounded user input; a test runs a handful of YAML files.", "anchors": ["src/exploration_cart_node.cpp::main", "src/exploration_omni_node.cpp::main"]}
{"id": "C86", "title": "The shipped configuration", "statement": "With config/explore_cart.yaml and config/explore_omni.yaml the nodes pass every check of the start-up and enter the loop, also in binary64 with any mathematical library. Then, as long as the odometry stays within 1.5 m/s per axis (sideways 0 for the cart) and 2.2 rad/s, every published velocity is within 1 m/s per axis (sideways 0 for the cart) and 2 rad/s; in binary64 within 2^-47 of it or not a number. Every iteration completes without exception or undefined behaviour if the maps it reads are complete messages with a resolution of at least 1/46340 m, 3 m of map around the robot and fewer than 2^32 target samples.", "quantifier": "every execution of the nodes with the shipped files: all messages, interleavings, poses, draws", "why_tests_cant": "Quantifies over all executions of two concurrent threads.", "anchors": ["src/exploration_cart_node.cpp::main", "src/exploration_omni_node.cpp::main", "include/ergodic_exploration/exploration.hpp::Exploration::control"]}
{"id": "C87", "title": "The plans of a running node are optimal for its parameters", "statement": "Every trajectory a node publishes is the motion, from the pose last looked up, under the controls the node holds then, and these are the result of one exact optimisation step for the parameters: the previous plan (initially standing still), shifted by one step and ended by a stop, is simulated; with the past being the first buffer_size poses ever looked up (those with the drawn numbers if they are more than batch_size), the co-state solves the co-state equation backwards from zero, driven by the derivatives of expl_weight times the ergodic metric (num_basis^2 modes, on the rectangle of the map to 1e-12) and of the barrier; and each new control is the only one within the velocity limits that minimises the Hamiltonian with control_weights as penalties. The coefficients of the target are those of the given Gaussians, sampled with target_resolution on a map planned on now or before that has the same extents. Its first control is the published velocity if it passes the collision check.", "quantifier": "every execution of both nodes: all parameters with positive penalties and velocity limits around zero, all messages, interleavings, poses, maps and draws; real arithmetic", "why_tests_cant": "Quantifies over all executions; the reference is a system of derivatives and a minimisation over a continuum.", "anchors": ["src/exploration_cart_node.cpp::main", "src/exploration_omni_node.cpp::main", "include/ergodic_exploration/exploration.hpp::Exploration::control", "include/ergodic_exploration/ergodic_control.hpp::ErgodicControl::control"]}
{"id": "C88", "title": "Without visible obstacles only the plan is commanded", "statement": "If no cell of any map received reaches the occupancy threshold, every velocity a node publishes is the first control of the plan made in the same iteration and the dynamic window never takes over. A threshold above 1.27 - one given in percent, which is accepted - has the same effect for all maps: a node then commands velocities that collide.", "quantifier": "both nodes, every parameter set, execution, interleaving and map; any arithmetic (the threshold part: binary64, every math library)", "why_tests_cant": "Quantifies over all executions and schedules, including partly copied maps.", "anchors": ["include/ergodic_exploration/exploration.hpp::Exploration::control", "src/ergodic_exploration/collision.cpp::Collision::checkCell", "src/exploration_cart_node.cpp::main", "src/exploration_omni_node.cpp::main"]}
{"id": "C89", "title": "Checks while the map changes", "statement": "Callbacks may also run between any two collision checks of one iteration. Each pose that a published velocity leads through during the validation, or during the horizon of the dynamic window if that took over, was then clear on the map held at the moment it was checked, which is the last one received or one partly copied; otherwise the velocity is zero. The velocity need not be clear on any one of the maps: a node publishes one that hits on every map it received. Executions without map changes between the checks are among these.", "quantifier": "every node, execution and interleaving of the callbacks with the single collision checks; binary64, every math library", "why_tests_cant": "Quantifies over all schedules of callbacks between single collision checks.", "anchors": ["include/ergodic_exploration/exploration.hpp::Exploration::control", "include/ergodic_exploration/numerics.hpp::validate_control", "src/ergodic_exploration/dynamic_window.cpp::DynamicWindow::control"]}
{"id": "C90", "title": "A target out of sight ends the node", "statement": "If every Gaussian evaluates to zero at every point of the lattice laid over the map, as happens from about 39 standard deviations on, an iteration that plans on such a map, its extents being new, does not complete: the coefficients are 0/0, the whole plan is NaN, the cart node ends with std::invalid_argument and the omni node casts NaN to an integer. So a node whose maps all lack the target never publishes anything. An omni node configured without a validation step publishes a NaN velocity instead.", "quantifier": "both nodes, every parameter set with at least one basis function, every execution and interleaving; binary64, every math library", "why_tests_cant": "Quantifies over all maps, targets, executions and math libraries; tests use targets on the map.", "anchors": ["include/ergodic_exploration/ergodic_control.hpp::ErgodicControl::configTarget", "src/ergodic_exploration/target.cpp::Target::fill", "include/ergodic_exploration/models/cart.hpp::SimpleCart::operator()", "include/ergodic_exploration/exploration.hpp::Exploration::control"]}
{"id": "C91", "title": "Rollouts in double precision stay close to the motion commanded", "statement": "With a sine and a cosine that are accurate to the last place, and a cosine that is 1 at angles up to 2^-27, the k-th pose that validate_control and the dynamic window compute with integrate_twist and the wrap of the heading is, after rounding, within k * (stride / 15000000 + 1 / 2400000000) in each coordinate, and within k * 1.5e-12 up to full turns in the heading, of the pose at time k * dt of the motion with exactly the twist given, stride being the way of one step; the rotation below the threshold 1e-12, which the code drops, is counted in the error. So if validate_control accepts a twist, and for whatever twist a node publishes that does not stop the robot, at the end of every step checked a position that near to the motion was tested and found free. A cosine one unit in the last place below 1 near 0 would put one step of 12 cm off by more than 0.05 mm.", "quantifier": "every pose within 500 km, every twist and period (2^-20 s to 1 s, up to 4 rad per period), up to 4096 steps and 200 km; every accurate math library; every map, configuration and execution of the nodes", "why_tests_cant": "Bounds the accumulated rounding error for all inputs; tests compare single steps with a tolerance.", "anchors": ["include/ergodic_exploration/numerics.hpp::integrate_twist", "include/ergodic_exploration/numerics.hpp::validate_control", "include/ergodic_exploration/numerics.hpp::normalize_angle_PI", "include/ergodic_exploration/exploration.hpp::Exploration::control"]}
{"id": "C92", "title": "Accepted twists keep the robot clear of walls, rounding included", "statement": "With a sine and cosine as accurate as in C91: if validate_control accepts a twist in double precision, then the robot that follows exactly this twist keeps clear of the walls of the map, from half a step on until the end of the last step checked, between the poses checked too. A wall (occupied cells, consecutive ones sharing an edge) one end of which is farther away than r + 2 cells does not come nearer than r - 2 cells, for each radius r in whole cells that is scanned and counts as a collision; half a step at the commanded speed and twice the accumulated rounding error of C91 are added to both. The same holds for whatever twist a node publishes that does not stop the robot, with the map and steps of the validation or those of the dynamic window.", "quantifier": "every configuration of the collision detector, every map of up to 2^30 rows and columns with finite measures, every pose, twist, period and number of steps as in C91, every accurate math library, every wall; every execution of the nodes", "why_tests_cant": "A statement about the continuous motion, all obstacles and all rounding errors; tests check poses one by one.", "anchors": ["include/ergodic_exploration/numerics.hpp::validate_control", "src/ergodic_exploration/collision.cpp::Collision::collisionCheck", "src/ergodic_exploration/grid.cpp::GridMap::world2Grid", "include/ergodic_exploration/exploration.hpp::Exploration::control"]}
{"id": "C93", "title": "The target distribution and the Fourier coefficients in double precision", "statement": "With an exponential that maps nonpositive arguments into [0,1], evaluate gives a number between each Gaussian's value and the count of Gaussians. fill gives numbers in [0,1], one per point, proportional to the evaluated values, and their sum is 1, both up to n*2^-51. With a cosine accurate to 2^-53, the coefficients of the filled target differ from the exact ones of the normalised values by at most (8n+24A+9)*2^-53, and the coefficients of a trajectory from the exact time averages by at most (N/2+12A+7)*2^-53, where A bounds the angles k*pi*x/l. If the cosine stays in [-1,1], so do the trajectory coefficients, without any rounding slack; the first one is 1 or the next double below, and 49 columns do give the latter.", "quantifier": "every target, translation, basis and list of points or trajectory with coordinates up to 2^30 in size, every math library as described", "why_tests_cant": "All inputs and all rounding errors, for an unknown math library; tests compare a few values with a tolerance.", "anchors": ["src/ergodic_exploration/target.cpp::Target::evaluate", "src/ergodic_exploration/target.cpp::Target::fill", "src/ergodic_exploration/basis.cpp::Basis::spatialCoeff", "src/ergodic_exploration/basis.cpp::Basis::trajCoeff", "include/ergodic_exploration/target.hpp::Gaussian::operator()"]}
{"id": "C94", "title": "Clearance while the map changes", "statement": "With the map replaced or overwritten by callbacks between any two collision checks, and with double precision and a math library as in C92: if a twist is accepted, the true motion is away from the walls of each map that was read, from half a step before to half a step after the pose it was checked on, by the distances of C92. A wall that is on all the maps read by the checks of the published twist is kept clear of from half a step on until the end of the last step checked. This holds for every twist a node publishes that does not stop the robot, for the checks of the validation or for those of the dynamic window.", "quantifier": "every sequence of maps, every interleaving of callbacks with the checks, every configuration, pose, twist and number of steps as in C91, every wall", "why_tests_cant": "All interleavings of two threads, the continuous motion and all rounding errors.", "anchors": ["include/ergodic_exploration/exploration.hpp::Exploration::control", "include/ergodic_exploration/exploration.hpp::Exploration::mapCallback", "include/ergodic_exploration/numerics.hpp::validate_control", "src/ergodic_exploration/dynamic_window.cpp::DynamicWindow::control", "src/ergodic_exploration/collision.cpp::Collision::collisionCheck"]}
{"id": "C95", "title": "Values of a target in double precision", "statement": "For coordinates up to W <= 2^30, standard deviations from 2^-14 to 2^30 in size and a math library whose exponential of a number that is not positive has an error of at most 2^-53, the value computed for a Gaussian at a point seen from the corner of a map is between 0 and 1 and differs from exp(-d^2/2), d the true distance from the mean in standard deviations, by at most (6 W (1/|sx| + 1/|sy|) + 9) * 2^-53. The value of a target with m Gaussians is a number that is not negative and differs from the sum of these exponentials by at most the sum of these errors and m(m+1)/2 * 2^-53, together D. The coefficients of the target filled on n points differ from the sums of modes times normalised values, both of real numbers, by at most (8n + 24A + 9) * 2^-53 + 2nD/S, where S > nD is the sum of the values at all points and A the largest angle. If all Gaussians are at least 39 standard deviations away from all points of a map, every value is zero and the target is out of sight in the sense of C90.", "quantifier": "every list of means and standard deviations, every point and translation, every list of points, every basis and mode, every math library as described", "why_tests_cant": "Error bounds for all doubles and for all libraries within the accuracy assumed; a test sees one library and some points.", "anchors": ["include/ergodic_exploration/target.hpp::Gaussian::Gaussian", "include/ergodic_exploration/target.hpp::Gaussian::operator()", "src/ergodic_exploration/target.cpp::Target::evaluate", "src/ergodic_exploration/target.cpp::Target::fill", "src/ergodic_exploration/basis.cpp::Basis::spatialCoeff"]}
{"id": "C96", "title": "Gradient of the ergodic metric in double precision", "statement": "For a math library whose cosine and sine have an error of at most 2^-53, angles of the modes up to A <= 2^40 and frequencies |k pi / l| up to f <= 2^40, each component of the gradient of a mode at a point is a number that differs from the true derivative of that mode by at most f (12A + 11) * 2^-53 + 2^-997. With n <= 2^20 modes, weights lambda between -1 and 1, coefficients of the trajectory and of the target between -2 and 2 and an exploration weight w of at most 2^30, the gradient of the ergodic metric along a trajectory has one column for every pose; its x and y components are numbers that differ from w times the sum over the modes of the true derivative times lambda (c - phi) by at most |w| f n (48A + 5n + 63) * 2^-53 + 2^-860, and its heading component is exactly 0.", "quantifier": "every basis, controller, trajectory, coefficients and exploration weight within the ranges, every math library as described", "why_tests_cant": "Error bounds for all doubles and for all libraries within the accuracy assumed; a test sees one library, and has no true derivative to compare with.", "anchors": ["src/ergodic_exploration/basis.cpp::Basis::gradFourierBasis", "include/ergodic_exploration/ergodic_control.hpp::ErgodicControl::gradErgodicMetric"]}
{"id": "C97", "title": "Barrier at the edge of the domain in double precision", "statement": "For extents of the domain and positions of at most M in size, 1 <= M <= 2^60, the gradient of the barrier has one column for every pose of the trajectory. Its x and y components are numbers that differ from the true derivative of the barrier, which begins 5 cm inside the domain, by at most 2000 M * 2^-53, although the comparisons in the code are made with rounded numbers; the heading component is exactly 0. A position at least 5 cm and 2^-53 from the lower end never has a negative component, one at least 5 cm and 2M * 2^-53 from the upper end never has a positive one, so between them the component is exactly zero.", "quantifier": "every controller and trajectory within the ranges, every math library", "why_tests_cant": "The bound holds for all doubles, including those where the rounded comparison and the true one disagree, which are too few to be met by sampling.", "anchors": ["include/ergodic_exploration/ergodic_control.hpp::ErgodicControl::gradBarrier"]}
{"id": "C98", "title": "Control update in double precision", "statement": "For the omni and the simple-cart model, finite limits in order, headings up to A for which the math library's sine and cosine have an error of at most 2^-53, co-states up to P and entries of R^-1 up to Q (1 <= P, Q <= 2^30), updateControl returns for every pose a control whose components are numbers within their limits and differ from the exact -R^-1 B(heading)^T rho, limited to the same range, by at most 120 P Q * 2^-53. If R is diagonal with positive weights (and, for the cart, the lateral limits are zero), that exact control is the only one within the limits that minimises the Hamiltonian.", "quantifier": "every trajectory and co-state trajectory, every inverse weight matrix and limits within the ranges, both models, every math library as described", "why_tests_cant": "An error bound for all doubles and all libraries within the accuracy assumed, and optimality over a continuum of controls.", "anchors": ["include/ergodic_exploration/ergodic_control.hpp::ErgodicControl::updateControl", "include/ergodic_exploration/models/omni.hpp::Omni::fdu", "include/ergodic_exploration/models/cart.hpp::SimpleCart::fdu"]}
{"id": "C99", "title": "Distances and polar coordinates in double precision", "statement": "For coordinates of at most 2^40 in size, distance() returns a number that is not negative, differs from the Euclidean distance D by at most 6 D * 2^-53 + 2^-498 and is the same when the two points are exchanged. Without the bound this is false: distinct points can have the distance 0 and finite points a distance that is not finite, because the squares underflow or overflow. For a range of at most R, 1 <= R <= 2^90, and an angle for which the math library's sine and cosine have an error of at most 2^-53, the coordinates of polar2Cartesian differ from range * cos(angle) and range * sin(angle) by at most 3 R * 2^-53, and polar2CartesianHomo returns the same two numbers and 1.", "quantifier": "all points, angles and ranges within the bounds, every math library as described", "why_tests_cant": "Error bounds for all doubles and all libraries within the accuracy assumed; the failures need coordinates that tests do not use.", "anchors": ["include/ergodic_exploration/numerics.hpp::distance", "include/ergodic_exploration/numerics.hpp::polar2Cartesian", "include/ergodic_exploration/numerics.hpp::polar2CartesianHomo"]}
