{"id": "C01", "title": "B-spline basis is a partition of unity", "statement": "For every non-decreasing knot vector and degree, evaluating a BSplineBasis at a point x of its domain (between knot number degree and knot number len(basis)) gives values that are all >= 0 and sum to exactly 1; the values of basis function i vanish outside the interval between knots i and i+degree+1.", "quantifier": "all degrees, all non-decreasing knot vectors (any multiplicities, including clamped ends), all x in the domain", "why_tests_cant": "The claim is over a continuum of points and unboundedly many knot vectors; sampled evaluation cannot exclude the knots, end points and repeated-knot cases.", "anchors": ["omgtools/basics/spline.py:Basis._ind", "omgtools/basics/spline.py:BSplineBasis.eval_basis", "omgtools/basics/spline.py:Basis.__len__"]}
{"id": "C02", "title": "Coefficient bounds bound the spline", "statement": "If all coefficients of a BSpline lie in [lb, ub] then its value lies in [lb, ub] at every point of the domain. This is the fact that makes OptiChild.define_constraint on a spline (which only constrains coefficients) sound for the whole continuous trajectory.", "quantifier": "all degrees, knot vectors, coefficient vectors, bounds and domain points", "why_tests_cant": "Constraint satisfaction between samples is exactly what sampling cannot show.", "anchors": ["omgtools/basics/spline.py:BSpline.__call__", "omgtools/basics/spline.py:BSplineBasis.eval_basis", "omgtools/basics/optilayer.py:OptiChild.define_constraint"]}
{"id": "C03", "title": "Same-basis spline arithmetic is pointwise", "statement": "For splines on the same basis, (s1+s2)(x)=s1(x)+s2(x), (s1-s2)(x)=s1(x)-s2(x), (-s)(x)=-s(x), (a*s)(x)=a*s(x), and for a number a, (s+a)(x)=s(x)+a on the domain.", "quantifier": "all bases, coefficients, scalars and points of the domain", "why_tests_cant": "Universal over real coefficients, bases and points.", "anchors": ["omgtools/basics/spline.py:BSpline.__add__", "omgtools/basics/spline.py:BSpline.__neg__", "omgtools/basics/spline.py:BSpline.__sub__", "omgtools/basics/spline.py:BSpline.__mul__"]}
{"id": "C04", "title": "BSpline.derivative is the mathematical derivative", "statement": "At every point strictly inside a knot interval, BSpline.derivative() evaluated there equals the derivative (limit of difference quotients) of the spline at that point; the derivative has degree one lower and knots with the two outer ones removed.", "quantifier": "all degrees >= 1, all knot vectors for which the code divides by non-zero knot differences, all coefficients, all points inside knot intervals", "why_tests_cant": "A limit statement over the reals; finite differences in tests have truncation error and a tolerance.", "anchors": ["omgtools/basics/spline.py:BSplineBasis.derivative", "omgtools/basics/spline.py:BSpline.derivative"]}
{"id": "C05", "title": "running_integral is an antiderivative starting at zero; integral is its final value", "statement": "running_integral(s) is a spline whose derivative() is s again (same knots, same coefficients), whose value at the start of the domain is 0, and whose value at the end equals s.integral(); hence definite_integral is additive over adjacent intervals.", "quantifier": "all degrees, clamped knot vectors, coefficients", "why_tests_cant": "Universal statement about symbolic integration used in objectives and in vehicle position reconstruction.", "anchors": ["omgtools/basics/spline_extra.py:running_integral", "omgtools/basics/spline_extra.py:definite_integral", "omgtools/basics/spline.py:BSpline.integral"]}
{"id": "C06", "title": "Knot insertion does not change the spline", "statement": "The coefficients produced by knot_insertion_T for an inserted knot describe, on the refined knot vector, the same function as the original spline at every point of the domain.", "quantifier": "all degrees, knot vectors, inserted knots inside the domain, coefficients, evaluation points", "why_tests_cant": "Equality of functions on a continuum.", "anchors": ["omgtools/basics/spline_extra.py:knot_insertion_T", "omgtools/basics/spline.py:BSpline.insert_knots"]}
{"id": "C07", "title": "scale() is an affine change of the argument", "statement": "s.scale(f, shift) has the same coefficients and satisfies s.scale(f,shift)(f*x+shift) = s(x) for every x when f>0; composing two scales equals the scale with the composed affine map.", "quantifier": "all knot vectors, degrees, factors f>0, shifts, points", "why_tests_cant": "Continuum of arguments.", "anchors": ["omgtools/basics/spline.py:Basis.scale", "omgtools/basics/spline.py:BSpline.scale"]}
{"id": "C08", "title": "Sum/product basis has the knots it needs", "statement": "The knot vector of basis1+basis2 (and basis1*basis2) is non-decreasing, contains exactly the distinct knots of both operands, has degree max (resp. sum), and every knot keeps at most the smoothness of the less smooth operand: multiplicity = degree - min(deg1-mult1, deg2-mult2) over operands that contain it.", "quantifier": "all pairs of knot vectors and degrees", "why_tests_cant": "Arbitrary knot multiplicities; a missing multiplicity silently makes transformations inexact.", "anchors": ["omgtools/basics/spline.py:Basis._combine", "omgtools/basics/spline.py:Basis.__add__", "omgtools/basics/spline.py:Basis.__mul__"]}
{"id": "C09", "title": "Spline power", "statement": "s**n for n>=1 evaluates to s(x)^n wherever products evaluate pointwise; s**0 must not be used: it returns s itself instead of the constant 1.", "quantifier": "all exponents n, all splines over a ring of functions", "why_tests_cant": "All exponents; the n=0 corner is the failing one.", "anchors": ["omgtools/basics/spline.py:BSpline.__pow__"]}
{"id": "C10", "title": "Equal bases hash equally and Greville points are in the domain", "statement": "Two bases that compare equal have the same hash (so caching by basis is sound) and every Greville point of a basis lies between the first and last interior knots, in non-decreasing order.", "quantifier": "all knot vectors and degrees", "why_tests_cant": "Universal over knot vectors.", "anchors": ["omgtools/basics/spline.py:Basis.__eq__", "omgtools/basics/spline.py:Basis.__hash__", "omgtools/basics/spline.py:Basis.greville"]}
{"id": "C11", "title": "Labels are unique", "statement": "After any sequence of object creations, the labels handed out by OptiChild._make_label are pairwise different, so no two objects share variables by accident; the generated label has the requested stem followed by a number.", "quantifier": "all sequences of requested labels for which the code terminates", "why_tests_cant": "Unbounded histories of label requests including requests that already look like generated labels.", "anchors": ["omgtools/basics/optilayer.py:OptiChild._make_label", "omgtools/basics/optilayer.py:OptiChild.__init__"]}
{"id": "C12", "title": "Constraint slicing with skip", "statement": "define_constraint(spline, lb, ub, skip=[a,b]), a and b not both zero, constrains exactly the coefficients a..len-b-1; with an empty skip it constrains all; with the pair [0,0] it silently constrains nothing at all.", "quantifier": "all coefficient lists and skip pairs", "why_tests_cant": "The silent loss of constraints is invisible in a solver test that happens to remain feasible.", "anchors": ["omgtools/basics/optilayer.py:OptiChild.define_constraint", "omgtools/problems/gcodeproblem.py:GCodeProblem.construct"]}
{"id": "C13", "title": "Parameters reach the solver unchanged", "statement": "OptiFather.set_parameters delivers, for every declared parameter, the value given by the owning child at this time, falling back to the value last set or the default; values for undeclared names are ignored and never leak to another child.", "quantifier": "all children, parameter names and value dictionaries", "why_tests_cant": "Universal over the dictionaries of all children.", "anchors": ["omgtools/basics/optilayer.py:OptiFather.set_parameters", "omgtools/basics/optilayer.py:OptiChild.set_parameters"]}
{"id": "C14", "title": "Symbols are bound to exactly one definition", "statement": "translate_symbols binds a shared symbol name to a child if and only if exactly one child defines it as variable or parameter; none or several definitions raise an error.", "quantifier": "all families of children and names", "why_tests_cant": "All combinations of definitions.", "anchors": ["omgtools/basics/optilayer.py:OptiFather.translate_symbols"]}
{"id": "C15", "title": "A* paths are real paths", "statement": "Every path returned by AStarPlanner.get_path begins at the snapped start cell, ends at the snapped goal cell, and any two successive cells are neighbours according to Grid.get_neighbors; every cell after the first is in bounds and not occupied.", "quantifier": "all grids, blocked sets, starts and goals for which a path is returned", "why_tests_cant": "Unbounded grids and obstacle layouts; needs an invariant of the open/closed lists.", "anchors": ["omgtools/problems/globalplanner.py:AStarPlanner.get_path", "omgtools/problems/globalplanner.py:AStarPlanner.closed_list_to_path", "omgtools/problems/globalplanner.py:Grid.get_neighbors"]}
{"id": "C16", "title": "A* terminates", "statement": "get_path finishes (path or exception) after at most n_cells[0]*n_cells[1]+1 iterations of its main loop, and it never selects a node from an empty open list.", "quantifier": "all finite grids, obstacle sets, starts and goals", "why_tests_cant": "Termination over all inputs.", "anchors": ["omgtools/problems/globalplanner.py:AStarPlanner.get_path", "omgtools/problems/globalplanner.py:AStarPlanner.get_lowest_f_cost_node"]}
{"id": "C17", "title": "A* failure reports", "statement": "If get_path raises, then either the start has no free neighbour or the search exhausted its open list; whenever no path exists it raises; but it can also raise 'There is no path' although the goal was just reached (a two-cell corridor).", "quantifier": "all grids", "why_tests_cant": "Requires completeness of an exhaustive search.", "anchors": ["omgtools/problems/globalplanner.py:AStarPlanner.get_path"]}
{"id": "C18", "title": "Diagonal moves never cut corners", "statement": "When cell_height is 1, a diagonal neighbour is only offered if both cells adjacent to the diagonal are free, and moves are symmetric; for any other cell height the down-left diagonal tests a wrong cell and may be wrongly refused or offered.", "quantifier": "all grids, cells and cell heights", "why_tests_cant": "Depends on the metric cell size leaking into an index computation.", "anchors": ["omgtools/problems/globalplanner.py:Grid.is_accessible", "omgtools/problems/globalplanner.py:Grid.get_neighbors"]}
{"id": "C19", "title": "Snapping to the grid", "statement": "move_to_gridpoint always returns an in-bounds cell; it returns a free cell whenever the nearest cell or one of its eight neighbours is free; if the nearest cell is free it is returned, and its centre is a nearest cell centre to any point of the room.", "quantifier": "all grids, blocked sets and points", "why_tests_cant": "Continuum of points and all occupancy patterns.", "anchors": ["omgtools/problems/globalplanner.py:Grid.move_to_gridpoint", "omgtools/problems/globalplanner.py:AStarPlanner.convert_node_to_waypoint"]}
{"id": "C20", "title": "A* path optimality", "statement": "Without diagonal moves being useful the Manhattan heuristic is admissible (it never exceeds the cost of any orthogonal path), but with diagonals it overestimates: there are grids on which the returned path is more expensive than another path.", "quantifier": "all grids for admissibility; an explicit grid for the failure", "why_tests_cant": "Optimality quantifies over all alternative paths.", "anchors": ["omgtools/problems/globalplanner.py:AStarPlanner.calculate_h_cost", "omgtools/problems/globalplanner.py:AStarPlanner.calculate_g_cost"]}
{"id": "C21", "title": "Occupied cells are detected", "statement": "A grid cell whose centre or corner lies strictly inside the (inflated) obstacle box, or that strictly contains an obstacle corner, is blocked; cells disjoint from the box are never blocked; a thin obstacle crossing a cell without any such corner incidence is missed.", "quantifier": "all grids, boxes", "why_tests_cant": "All relative placements of boxes and cells.", "anchors": ["omgtools/problems/globalplanner.py:Grid.get_occupied_cells"]}
{"id": "C22", "title": "Rectangle overlap test", "statement": "rectangles_overlap answers true exactly when the two axis-aligned rectangles share a point (touching included), is symmetric, and compute_rectangle_overlap_center returns a point in both.", "quantifier": "all pairs of rectangles", "why_tests_cant": "All real coordinates including touching edges.", "anchors": ["omgtools/basics/geometry.py:rectangles_overlap", "omgtools/basics/geometry.py:compute_rectangle_overlap_center"]}
{"id": "C23", "title": "Line intersection", "statement": "intersect_lines returns a point lying on both lines, and none exactly when the lines are parallel; intersect_line_segments answers true only when the segments share a point and always when they cross in an inner point of both; a touching end point can be missed.", "quantifier": "all pairs of lines/segments", "why_tests_cant": "All real coordinates.", "anchors": ["omgtools/basics/geometry.py:intersect_lines", "omgtools/basics/geometry.py:intersect_line_segments"]}
{"id": "C24", "title": "Circle/polyhedron test", "statement": "circle_polyhedron_intersection never reports an intersection unless the boundary of the polygon is within the radius (up to the tolerance 1e-6), and finds every edge that does not descend when the nearest point is inside it, and the first two vertices; a disc that only reaches vertex 3 or 4, or only cuts a descending edge, is missed.", "quantifier": "all circles and polygons", "why_tests_cant": "Needs a polygon whose descending edge or left corner is the only part hit.", "anchors": ["omgtools/basics/geometry.py:circle_polyhedron_intersection"]}
{"id": "C25", "title": "Separating hyperplane excludes collision", "statement": "If the hyperplane constraints used between a vehicle and an obstacle hold (a\u00b7v - b + offsets on either side, with a bounded by one), then the inflated vehicle disc and the obstacle (polygon or disc) share no interior point.", "quantifier": "all hyperplanes, polygons, radii and positions", "why_tests_cant": "Geometric implication over all placements.", "anchors": ["omgtools/environment/environment.py:Environment.define_collision_constraints", "omgtools/vehicles/vehicle.py:Vehicle.define_collision_constraints_2d", "omgtools/environment/obstacle.py:Obstacle2D.define_collision_constraints"]}
{"id": "C26", "title": "Simulator time base", "statement": "The time recorded by the simulator starts at 0, grows by sample_time per sample whatever updates are made; updates of k samples add k entries and keep current_time equal to the last entry (off the sample grid they drift apart by at most about one sample per update); a run has one entry per vehicle sample until the stop, which records one less; stopping after a single sample is refuted (the full update time is recorded).", "quantifier": "all sequences of updates", "why_tests_cant": "Unbounded simulations.", "anchors": ["omgtools/execution/simulator.py:Simulator.update_timing", "omgtools/execution/simulator.py:Simulator.run", "omgtools/execution/deployer.py:Deployer.update"]}
{"id": "C27", "title": "time2index", "statement": "time2index(t) returns the last sample whose time is not after t whenever t is nearer to that sample; for times nearer to the next sample it returns None.", "quantifier": "all time vectors and query times", "why_tests_cant": "All query times.", "anchors": ["omgtools/execution/simulator.py:Simulator.time2index"]}
{"id": "C28", "title": "Fixed-time problem keeps its horizon grid", "statement": "In a fixed-time problem knot_time*knot_intervals never exceeds horizon_time; with Python 2 division it equals it exactly when the horizon is a multiple of knot_intervals milliseconds, with Python 3 division exactly when it is a whole number of milliseconds; the parameter t handed to the optimiser is always in [0, knot_time).", "quantifier": "all horizons, interval counts and times", "why_tests_cant": "Truncation effects at arbitrary horizons.", "anchors": ["omgtools/problems/point2point.py:FixedTPoint2point.__init__", "omgtools/problems/point2point.py:FixedTPoint2point.set_parameters"]}
{"id": "C29", "title": "Spline shift bookkeeping in receding horizon", "statement": "init_step shifts the spline exactly when a new knot interval is entered; over any run in which each update is at most one knot interval long the number of shifts equals the number of knot intervals passed; with longer updates shifts are lost.", "quantifier": "all update sequences", "why_tests_cant": "Unbounded runs.", "anchors": ["omgtools/problems/point2point.py:FixedTPoint2point.init_step"]}
{"id": "C30", "title": "Arrival test", "statement": "For tolerance below one the vehicle's check_terminal_conditions is true exactly when the pose error and the input norm are both at most the tolerance; for tolerance of one or more it ignores the pose error.", "quantifier": "all states, inputs, tolerances", "why_tests_cant": "Operator-precedence error only visible for special tolerances.", "anchors": ["omgtools/vehicles/holonomic.py:Holonomic.check_terminal_conditions", "omgtools/vehicles/dubins.py:Dubins.check_terminal_conditions", "omgtools/vehicles/bicycle.py:Bicycle.check_terminal_conditions"]}
{"id": "C31", "title": "Logged signals stay aligned", "statement": "After any sequence of simulation steps all signals of a vehicle (state, input, time, pose) have the same number of samples, provided the simulated time is an exact multiple of the sample time; the two different roundings used can otherwise disagree.", "quantifier": "all step sequences", "why_tests_cant": "Unbounded histories and floating truncation corner.", "anchors": ["omgtools/vehicles/vehicle.py:Vehicle.simulate", "omgtools/vehicles/vehicle.py:Vehicle.store", "omgtools/vehicles/vehicle.py:Vehicle.integrate_ode"]}
{"id": "C32", "title": "Fleet neighbour relation", "statement": "For a circular interconnection with at least three vehicles every vehicle has exactly two different neighbours and neighbourhood is symmetric; with full interconnection everyone neighbours everyone else; relative configurations are antisymmetric.", "quantifier": "all fleet sizes and configurations", "why_tests_cant": "All fleet sizes.", "anchors": ["omgtools/vehicles/fleet.py:Fleet.set_neighbors", "omgtools/vehicles/fleet.py:Fleet.set_configuration"]}
{"id": "C33", "title": "Formation constraint implies the formation", "statement": "If all interaction constraints created for a connected interconnection hold, then all vehicles agree on the fleet centre, and the difference of two vehicle positions equals the difference of their configured offsets.", "quantifier": "all fleet sizes >= 3 (circular), all trajectories", "why_tests_cant": "Induction over the interconnection graph.", "anchors": ["omgtools/problems/formation.py:FormationPoint2point.construct", "omgtools/problems/rendezvous.py:RendezVous.construct", "omgtools/vehicles/fleet.py:Fleet.get_neighbors"]}
{"id": "C34", "title": "Central formation problem constrains enough pairs", "statement": "FormationPoint2pointCentral with at least three vehicles still constrains enough pairs to force the formation although the last two vehicles' couples are dropped; with two vehicles it constrains nothing.", "quantifier": "all fleet sizes", "why_tests_cant": "All fleet sizes.", "anchors": ["omgtools/problems/formation_central.py:FormationPoint2pointCentral.construct"]}
{"id": "C35", "title": "Distributed problem structure", "statement": "interprete_constraints produces, for every coupling constraint between two updaters, mutually consistent index tables: what a vehicle expects from its neighbour is what the neighbour is told to send; index lists are sorted without duplicates and neighbours are symmetric.", "quantifier": "all constraint lists over all fleets", "why_tests_cant": "All constraint graphs.", "anchors": ["omgtools/problems/distributedproblem.py:DistributedProblem.interprete_constraints"]}
{"id": "C36", "title": "ADMM consensus update is optimal", "statement": "The closed-form z-update satisfies the coupling constraint A z = b exactly and minimises the augmented Lagrangian term over all z satisfying it.", "quantifier": "all dimensions, multipliers, copies and penalty rho > 0 with the code's matrix invertible", "why_tests_cant": "Optimality over an infinite feasible set.", "anchors": ["omgtools/problems/admm.py:ADMM.update_z", "omgtools/problems/admm.py:ADMM.construct_upd_z"]}
{"id": "C37", "title": "ADMM exchange keeps copies equal", "statement": "After each communication round every vehicle's stored copies of its neighbours' variables equal the neighbours' own values, for every number of iterations.", "quantifier": "all fleets, iteration counts", "why_tests_cant": "Invariant over unbounded iterations.", "anchors": ["omgtools/problems/admm.py:ADMM.communicate", "omgtools/problems/dualmethod.py:DualProblem.solve"]}
{"id": "C38", "title": "ADMM residual accounting", "statement": "The reported primal residual of the ADMM is the root of the sum of squared disagreements and is zero exactly when all copies agree; the dual-decomposition variant squares twice and reports a different number.", "quantifier": "all iterates", "why_tests_cant": "All real values.", "anchors": ["omgtools/problems/admm.py:ADMM.get_residuals", "omgtools/problems/dualdecomposition.py:DDUpdater.get_residuals"]}
{"id": "C39", "title": "Nesterov acceleration factor", "statement": "The acceleration parameter is at least 1, grows by at least one half per accelerated step, and extrapolation weights stay in [0,1).", "quantifier": "all iteration counts", "why_tests_cant": "Unbounded recursion.", "anchors": ["omgtools/problems/admm.py:ADMM.accelerate"]}
{"id": "C40", "title": "Iteration budget of dual methods", "statement": "solve performs exactly max_iter_per_update iterations; the history of stacked variables has one more entry than the iteration history of objectives.", "quantifier": "all options and call sequences", "why_tests_cant": "Unbounded call sequences.", "anchors": ["omgtools/problems/dualmethod.py:DualProblem.solve", "omgtools/problems/dualmethod.py:DualProblem.initialize"]}
{"id": "C41", "title": "G-code block chain is continuous", "statement": "The blocks produced from a program form a chain: each block starts where the previous motion command ended (even when zero-length commands are dropped in between), missing coordinates keep their previous value and unknown commands are skipped.", "quantifier": "all command sequences", "why_tests_cant": "Unbounded programs with dropped blocks.", "anchors": ["omgtools/gui/gcode_reader.py:GCodeReader.create_blocks", "omgtools/gui/gcode_block.py:generate_gcodeblock", "omgtools/gui/gcode_block.py:GCodeBlock"]}
{"id": "C42", "title": "Block division is lossless", "statement": "get_block_division splits the block list into pieces whose concatenation is the input; every Z-move is alone in its piece and other pieces contain no Z-move; a program ending in a Z-move yields an extra empty piece.", "quantifier": "all block lists", "why_tests_cant": "All lists.", "anchors": ["omgtools/gui/gcode_reader.py:GCodeReader.get_block_division"]}
{"id": "C43", "title": "Arc sampling end points", "statement": "For an arc block the first sampled point is the start, the last is the end when start and end are equally far from the centre; G02 runs clockwise and G03 counter-clockwise with an angle in [0,2pi].", "quantifier": "all arcs in the XY plane", "why_tests_cant": "Trigonometric identity over all angles.", "anchors": ["omgtools/gui/gcode_block.py:G02.get_coordinates", "omgtools/gui/gcode_block.py:G03.get_coordinates"]}
{"id": "C44", "title": "Line segments become covering rooms", "statement": "For a straight G-code move the created room contains the whole segment with the requested tolerance around it; when split in three the lengths add up and consecutive rooms touch.", "quantifier": "all segments, tolerances", "why_tests_cant": "All segment orientations.", "anchors": ["omgtools/problems/gcodeschedulerproblem.py:GCodeSchedulerProblem.get_environment"]}
{"id": "C45", "title": "Scheduler window over the program", "statement": "The G-code scheduler's current window of rooms is always a contiguous part of the program starting at the current block, has at most n_segments rooms, advances monotonically and finally contains the last room.", "quantifier": "all programs and update sequences", "why_tests_cant": "Unbounded executions.", "anchors": ["omgtools/problems/gcodeschedulerproblem.py:GCodeSchedulerProblem.update_segments", "omgtools/problems/gcodeschedulerproblem.py:GCodeSchedulerProblem.solve"]}
{"id": "C46", "title": "Bang-bang jerk guess", "statement": "The jerk coefficients of the bang-bang initial guess have the length required by the basis, sum to zero and are symmetric, so that the guess starts and ends at rest at the segment end points.", "quantifier": "all basis sizes, segments", "why_tests_cant": "All sizes.", "anchors": ["omgtools/problems/gcodeschedulerproblem.py:GCodeSchedulerProblem.get_init_guess_bangbang_jerk"]}
{"id": "C47", "title": "Connection constraints give smooth joints", "statement": "If the connection constraints between consecutive segments hold and the segment times are positive, position and all constrained derivatives with respect to physical time are continuous at the joint.", "quantifier": "all degrees, segment times > 0, splines", "why_tests_cant": "Chain-rule identity over all times.", "anchors": ["omgtools/problems/multiframeproblem.py:MultiFrameProblem.construct", "omgtools/problems/gcodeproblem.py:GCodeProblem.construct"]}
{"id": "C48", "title": "Obstacle prediction spline", "statement": "The obstacle position spline equals x0+v0*t+a*t^2/2 with the measured state at the current time: at the current time its value and velocity equal the measurement.", "quantifier": "all states, times, horizons", "why_tests_cant": "All times.", "anchors": ["omgtools/environment/obstacle.py:ObstaclexD.init", "omgtools/environment/obstacle.py:Obstacle2D.init"]}
{"id": "C49", "title": "Obstacle bounce keeps speed", "statement": "When the environment reflects bouncing obstacles the speed components keep their magnitude and an obstacle leaving the room moves inwards afterwards.", "quantifier": "all obstacle and room states", "why_tests_cant": "All real states.", "anchors": ["omgtools/environment/environment.py:Environment.simulate"]}
{"id": "C50", "title": "Velocity limits carry to physical time", "statement": "If the trajectory constraints of a holonomic vehicle hold in normalised time then the physical velocity and acceleration respect the given bounds at all times.", "quantifier": "all splines, horizons T>0, bounds", "why_tests_cant": "Continuum in time.", "anchors": ["omgtools/vehicles/holonomic.py:Holonomic.define_trajectory_constraints"]}
{"id": "C51", "title": "Half-angle substitution is exact", "statement": "For vehicles using v_til and tg_ha (Dubins, bicycle, AGV) the reported state and input satisfy the vehicle ODE: dx=V cos(theta), dy=V sin(theta), dtheta = 2 dtg_ha/(1+tg_ha^2), and the trajectory constraints bound V and dtheta.", "quantifier": "all real v_til, tg_ha and derivatives", "why_tests_cant": "Trigonometric identities on all reals.", "anchors": ["omgtools/vehicles/dubins.py:Dubins.splines2signals", "omgtools/vehicles/dubins.py:Dubins.ode", "omgtools/vehicles/bicycle.py:Bicycle.splines2signals", "omgtools/vehicles/agv.py:AGV.splines2signals"]}
{"id": "C52", "title": "Quadrotor flatness", "statement": "The quadrotor's state and inputs reconstructed from the flat output satisfy its ODE, and the trajectory constraints bound thrust and angular rate.", "quantifier": "all flat outputs with positive vertical thrust", "why_tests_cant": "All reals.", "anchors": ["omgtools/vehicles/quadrotor.py:Quadrotor.splines2signals", "omgtools/vehicles/quadrotor.py:Quadrotor.ode", "omgtools/vehicles/quadrotor3d.py:Quadrotor3D.ode"]}
{"id": "C53", "title": "Trailer stays hitched", "statement": "The trailer ODE keeps the trailer at distance l_hitch behind the vehicle; the angle limit on tangents is not equivalent to the intended limit on angles.", "quantifier": "all angles, speeds", "why_tests_cant": "All reals.", "anchors": ["omgtools/vehicles/trailer.py:Trailer.ode", "omgtools/vehicles/trailer.py:Trailer.define_trajectory_constraints"]}
{"id": "C54", "title": "Dubins fleet centre signal", "statement": "The fleet centre constrained in the optimisation and the fleet centre logged by the vehicle agree up to a quarter turn of the offset: they coincide only for zero offset.", "quantifier": "all poses, offsets", "why_tests_cant": "All reals.", "anchors": ["omgtools/vehicles/dubins.py:Dubins.get_fleet_center", "omgtools/vehicles/dubins.py:Dubins.splines2signals"]}
{"id": "C55", "title": "Exported vector layout", "statement": "In the exported C++ code the parameter and variable vectors are filled at disjoint consecutive positions covering the declared size; the spline-shift code uses the same positions only while no variable has more than one column.", "quantifier": "all problems", "why_tests_cant": "All declarations.", "anchors": ["omgtools/export/export.py:Export._create_getParameterVector", "omgtools/export/export.py:Export._create_getVariableVector", "omgtools/export/export.py:Export._create_transformSplines"]}
{"id": "C56", "title": "Movie frame selection", "statement": "Movie indices are valid, start at 0 and are increasing; at least the requested number of frames is shown, but the number can be exceeded (up to nearly twice). The last sample is shown iff the number of frames minus one divides the number of samples minus one, which the default movie and the tikz export never satisfy; one requested frame divides by zero.", "quantifier": "all time lengths and frame counts", "why_tests_cant": "Integer division corner cases.", "anchors": ["omgtools/execution/plotlayer.py:PlotLayer.plot_movie"]}
{"id": "C57", "title": "SVG circle through three points", "statement": "For three points in general position the reported centre is equidistant from all three; for axis-parallel chords the special cases return a wrong centre or fail (right only when a horizontal chord is a diameter).", "quantifier": "all triples of points", "why_tests_cant": "All reals.", "anchors": ["omgtools/gui/svg_reader.py:SVGReader"]}
{"id": "C58", "title": "Scheduler frames form a window along the path", "statement": "In every state the scheduler reaches, the number of frames equals the number it looks at, at least one and at most the requested number, and the local problem has one room per frame with its limits; corridor frames start where the previous one ends, the first one starts at the vehicle, and when there are fewer frames than requested the last one ends at the goal. The frames change only when the vehicle is deep inside the next one and the goal is not in the first one; then the first frame is dropped and at most one added. The motion stops exactly when the local problem stops in a frame ending at the goal.", "quantifier": "all worlds, options, planners and sequences of solves that raise no error", "why_tests_cant": "Unbounded runs with arbitrary positions, obstacles and motion times.", "anchors": ["omgtools/problems/schedulerproblem.py:SchedulerProblem.solve", "omgtools/problems/schedulerproblem.py:SchedulerProblem.create_frames", "omgtools/problems/schedulerproblem.py:SchedulerProblem.check_frames", "omgtools/problems/schedulerproblem.py:SchedulerProblem.update_frames", "omgtools/problems/schedulerproblem.py:SchedulerProblem.stop_criterium"]}
{"id": "C59", "title": "Frame borders stay inside the room", "statement": "A shifted frame never passes the sides of the room, contains its start position and is not larger than the frame size. Scaling up a corridor frame only enlarges it, ends, keeps three sides in the room, leaves no side that could be moved one more step, and ends on an obstacle exactly when the lower side has passed the room, which does happen. Frames around a goal or a vehicle near a wall leave the room.", "quantifier": "all rooms, frames, vehicles and obstacles", "why_tests_cant": "All reals.", "anchors": ["omgtools/environment/frame.py:Frame.make_border", "omgtools/environment/frame.py:CorridorFrame.scale_up_frame"]}
{"id": "C60", "title": "Symbols are replaced with the entry they stand for", "statement": "When the problem is constructed, every symbol name_label of a child is replaced with that child's own variable or parameter entry, and a shared symbol with the entry of its only owner, for all families of children with different labels free of underscores; with an underscore in a label a variable can be taken for the variable of another object.", "quantifier": "all families of children, all histories of define_* calls", "why_tests_cant": "Collisions depend on combinations of names and labels.", "anchors": ["omgtools/basics/optilayer.py:OptiChild._define_mx", "omgtools/basics/optilayer.py:OptiChild._add_label", "omgtools/basics/optilayer.py:OptiFather.compose_dictionary", "omgtools/basics/optilayer.py:OptiFather._substitute_symbols"]}
{"id": "C61", "title": "No constraint is lost", "statement": "Every call of define_constraint on a non-number adds one entry with its own rows, bounds and shutdown condition, none is overwritten, n_cons counts the rows, and the constructed problem holds the constraints of all children exactly once (labels free of underscores). After reset n_cons keeps the old count.", "quantifier": "all sequences of define_constraint calls and all families of children", "why_tests_cant": "Unbounded histories; a lost constraint is silent.", "anchors": ["omgtools/basics/optilayer.py:OptiChild.define_constraint", "omgtools/basics/optilayer.py:OptiFather.construct_constraints", "omgtools/basics/optilayer.py:OptiChild.reset"]}
{"id": "C62", "title": "Shutdown conditions open exactly their own constraint", "statement": "update_bounds returns the stored bounds except for the constraints whose shutdown condition holds at the given time, which become unbounded; under Python 3 it raises a NameError as soon as one constraint has a shutdown condition.", "quantifier": "all constraint sets, conditions and times", "why_tests_cant": "All combinations of conditions.", "anchors": ["omgtools/basics/optilayer.py:OptiFather.update_bounds"]}
{"id": "C63", "title": "Shape vertices", "statement": "Rectangle(w,h,th) has the corners (+-w/2,+-h/2) turned over th, in clockwise order, and RegularPolyhedron(r,n) has n equally spaced vertices at distance r from its centre.", "quantifier": "all sizes, orientations and vertex counts", "why_tests_cant": "All real sizes and all n.", "anchors": ["omgtools/basics/shape.py:Rectangle.get_vertices", "omgtools/basics/shape.py:RegularPolyhedron.get_vertices", "omgtools/basics/shape.py:Shape2D.rotate"]}
{"id": "C64", "title": "Point in polyhedron", "statement": "point_in_polyhedron answers true for a (turned) rectangle exactly for its points, widened by the margin; it never rejects a point of a clockwise convex polygon; for a counter-clockwise polygon it rejects inner points.", "quantifier": "all polygons, points, positions and margins", "why_tests_cant": "All real coordinates; vertex order matters only for user-made polygons.", "anchors": ["omgtools/basics/geometry.py:point_in_polyhedron", "omgtools/basics/shape.py:Polyhedron.get_hyperplanes"]}
{"id": "C65", "title": "Distances", "statement": "distance_between_points is a metric and raises exactly on different dimensions; distance_to_line is the distance to the nearest point of the line; distance_to_rectangle gives the signed distance to the nearer sides of an upright rectangle, but changes the rectangle so that asking again gives another answer.", "quantifier": "all points, lines and rectangles", "why_tests_cant": "Triangle inequality over all dimensions; hidden mutation.", "anchors": ["omgtools/basics/geometry.py:distance_between_points", "omgtools/basics/geometry.py:distance_to_line", "omgtools/basics/geometry.py:distance_to_rectangle"]}
{"id": "C66", "title": "Point in rectangle over time", "statement": "For a moving point, point_in_rectangle answers true only if the point is inside at some time of the horizon, and always if it stays inside for half a second; a faster crossing can go unnoticed.", "quantifier": "all points, velocities, horizons and rectangles", "why_tests_cant": "Continuous time against samples.", "anchors": ["omgtools/basics/geometry.py:point_in_rectangle"]}
{"id": "C67", "title": "Obstacle overlap", "statement": "overlaps_with is symmetric, true for two discs exactly when the open discs meet; is_outside_of is false exactly when the whole obstacle lies in the rectangular room.", "quantifier": "all obstacles and rooms", "why_tests_cant": "All real coordinates.", "anchors": ["omgtools/environment/obstacle.py:Obstacle2D.overlaps_with", "omgtools/environment/obstacle.py:Obstacle2D.is_outside_of"]}
{"id": "C68", "title": "Room constraints keep the vehicle inside", "statement": "The room constraints of a vehicle hold exactly when its whole inflated body is inside an upright rectangular room, and keep the body on the inner side of every wall of a polygonal room; in space the radius is left out, so a sphere can stick out of the room.", "quantifier": "all rooms, shapes, positions and orientations", "why_tests_cant": "All placements of the body.", "anchors": ["omgtools/vehicles/vehicle.py:Vehicle.define_collision_constraints_2d", "omgtools/vehicles/vehicle.py:Vehicle.define_collision_constraints_3d"]}
{"id": "C69", "title": "Rotation of solids", "statement": "Shape3D.rotate is the turn about x, then y, then z, and preserves all lengths and angles.", "quantifier": "all angles and points", "why_tests_cant": "All real angles.", "anchors": ["omgtools/basics/shape.py:Shape3D.rotate"]}
{"id": "C70", "title": "Delay compensation of the deployer", "statement": "When update is called k samples after the previous call, the predicted state is column k of the previously planned trajectory, the state planned for the current time; if the plan ends before that, the column of one update time is used; the column always exists. Off the sample grid the delay is truncated.", "quantifier": "all sample times, update times and call times on the sample grid", "why_tests_cant": "All call patterns.", "anchors": ["omgtools/execution/deployer.py:Deployer.update", "omgtools/vehicles/vehicle.py:Vehicle.predict"]}
{"id": "C71", "title": "Zero primal residual means coupled", "statement": "When the primal residual that ADMM reports after a dual update is zero, the planned variables of the vehicles themselves (not only the consensus copies) satisfy every coupling constraint.", "quantifier": "all fleets, coupling matrices, states and solver outcomes, without acceleration", "why_tests_cant": "Statement about all reachable states of a distributed iteration.", "anchors": ["omgtools/problems/admm.py:ADMMProblem.dual_update", "omgtools/problems/admm.py:ADMM.update_z"]}
{"id": "C72", "title": "Stationary ADMM states are optimal", "statement": "If a dual update leaves a state unchanged and the vehicles' own problems are convex, the planned variables satisfy all coupling constraints and minimise the sum of the vehicles' objectives among all jointly feasible plans.", "quantifier": "all fleets, convex objectives and constraint sets, coupling matrices, penalties rho > 0", "why_tests_cant": "Optimality compares against all feasible plans.", "anchors": ["omgtools/problems/admm.py:ADMM.construct_upd_x", "omgtools/problems/admm.py:ADMM.construct_upd_z", "omgtools/problems/admm.py:ADMMProblem.dual_update"]}
{"id": "C73", "title": "Converted G-code programs", "statement": "Shifting and scaling a program (GCodeReader.convert) yields a program whose blocks are exactly the shifted and scaled blocks of the original, provided the first motion gives both coordinates and every arc gives both centre offsets; otherwise coordinates or centres stay behind.", "quantifier": "all programs, offsets, non-zero scale factors and exact number notations", "why_tests_cant": "Quantifies over all programs and all number notations.", "anchors": ["omgtools/gui/gcode_reader.py:GCodeReader.convert", "omgtools/gui/gcode_block.py:generate_gcodeblock"]}
{"id": "C74", "title": "Arc segments become covering rooms", "statement": "The ring rooms created for an arc, split in halves or not, clockwise or counter-clockwise, cover exactly the band of the tolerance around the arc lengthened by the tolerance angle at both ends; with varying tolerance the three parts cover their pieces. A full circle is reduced to a sliver.", "quantifier": "all arcs of less than a turn, radii, tolerances, directions", "why_tests_cant": "Continuum of arcs and points.", "anchors": ["omgtools/problems/gcodeschedulerproblem.py:GCodeSchedulerProblem.get_environment", "omgtools/problems/gcodeschedulerproblem.py:GCodeSchedulerProblem.split_ring_segment", "omgtools/basics/shape.py:Ring"]}
{"id": "C75", "title": "Segment switching test", "statement": "point_in_extended_shape accepts a state exactly when it lies inside the infinitely long version of a slanted room (or the complete ring of an arc) shrunk by the margin; for horizontal and vertical rooms the margin is ignored and nearly square slanted rooms are not extended.", "quantifier": "all rectangles, orientations, positions, points, margins", "why_tests_cant": "Continuum of points and orientations with exact borders.", "anchors": ["omgtools/problems/gcodeschedulerproblem.py:GCodeSchedulerProblem.point_in_extended_shape"]}
{"id": "C76", "title": "Jerk-limited motion time", "statement": "The eight phase durations computed for a motion-time guess are non-negative and form a motion from rest to rest over exactly the given distance that respects the velocity, acceleration and jerk limits, and the returned time is their sum; for straight moves the code passes the squared length as distance.", "quantifier": "all positive distances and limits", "why_tests_cant": "Continuum of limits with case distinctions between saturated limits.", "anchors": ["omgtools/problems/gcodeschedulerproblem.py:GCodeSchedulerProblem.get_init_guess_motion_time"]}
{"id": "C77", "title": "Start constraints reproduce the prediction", "statement": "The initial constraints that a vehicle adds to the optimisation hold exactly when the signals computed from the splines start at the predicted state and input; headings count up to full turns. A bicycle or AGV that is nearly standing loses its remaining speed.", "quantifier": "all predicted states and inputs, horizons T>0", "why_tests_cant": "Continuum of states; round trip through tangents of half angles.", "anchors": ["omgtools/vehicles/holonomic.py:Holonomic.get_initial_constraints", "omgtools/vehicles/dubins.py:Dubins.get_initial_constraints", "omgtools/vehicles/bicycle.py:Bicycle.get_initial_constraints", "omgtools/vehicles/quadrotor3d_simple.py:SimpleQuadrotor3D.get_initial_constraints"]}
{"id": "C78", "title": "Terminal constraints imply arrival", "statement": "If the terminal constraints of a vehicle hold then its arrival test succeeds at the end of the trajectory for every tolerance; this fails for Quadrotor3D (attitude rates are free) and for Bicycle and AGV (the steering rate of the previous sample is reported).", "quantifier": "all goals, horizons, tolerances", "why_tests_cant": "Continuum of goals; relation between two separately written pieces of code.", "anchors": ["omgtools/vehicles/holonomic.py:Holonomic.get_terminal_constraints", "omgtools/vehicles/dubins.py:Dubins.get_terminal_constraints", "omgtools/vehicles/quadrotor3d.py:Quadrotor3D.get_terminal_constraints", "omgtools/vehicles/bicycle.py:Bicycle.check_terminal_conditions"]}
{"id": "C79", "title": "Tool stays within tolerance of the segment", "statement": "The room constraints of the machine tool hold exactly when the tool point is within half the room height of the line of a slanted straight segment, inside the room of an axis-parallel one, between both radii of an arc, and between the heights of both ends; for segments at constant height the height is unconstrained.", "quantifier": "all segments and tool positions", "why_tests_cant": "Continuum of positions and segment geometries.", "anchors": ["omgtools/vehicles/tool.py:Tool.define_collision_constraints"]}
{"id": "C80", "title": "Simulated obstacles follow their schedule", "statement": "Every sample recorded by obstacle simulation lies on the motion with uniform acceleration from the initial state plus exactly the jumps scheduled by the user's trajectories up to that time, however the simulation is cut into calls; a measured state restarts the motion from there. A value given for time 0 only counts when it stands first, and after a measured state the recorded times and states no longer line up.", "quantifier": "all trajectories with non-negative times, states, sample times and sequences of calls", "why_tests_cant": "Unbounded sequences of calls and continuum of times.", "anchors": ["omgtools/environment/obstacle.py:ObstaclexD.prepare_simulation", "omgtools/environment/obstacle.py:ObstaclexD.simulate", "omgtools/environment/obstacle.py:ObstaclexD.set_state", "omgtools/environment/obstacle.py:Obstacle2D.simulate"]}
{"id": "C81", "title": "Rotating obstacles are rigid", "statement": "The rational splines used for rotating obstacles describe an exact rotation of the checkpoints at every point of the horizon, with an angle less than an eighth of a turn off the physical one and exact at all multiples of an eighth of a turn; the angle measured during the horizon is not reproduced at the moment of the measurement.", "quantifier": "all angles, angular velocities other than 0, horizons T>0, points of the horizon", "why_tests_cant": "Continuum of times and any number of turns.", "anchors": ["omgtools/environment/obstacle.py:Obstacle2D.init", "omgtools/environment/obstacle.py:Obstacle2D.define_collision_constraints"]}
{"id": "C82", "title": "Basis transformation keeps the curve", "statement": "If a basis is clamped on the same interval and has every inner knot of another basis with the raised multiplicity, the matrix returned by transform turns coefficients of the other basis into coefficients of the same curve at every point, up to the rounding of entries below TOL; inserting knots keeps the curve; the matrix is found whenever the collocation matrix is regular.", "quantifier": "all clamped bases, coefficients, evaluation points, tolerances", "why_tests_cant": "Exactness at every point of a continuum and for all knot vectors; tests compare samples only.", "anchors": ["omgtools/basics/spline.py:BSplineBasis.transform", "omgtools/basics/spline.py:Basis.insert_knots", "omgtools/basics/spline.py:BSpline.insert_knots"]}
{"id": "C83", "title": "Sums and products of splines are pointwise", "statement": "Whenever s1+s2, s1-s2 and s1*s2 return for clamped splines on one interval with arbitrary degrees and inner knots, the result evaluates at every point to the sum, difference and product of the operands, up to an explicit multiple of TOL and exactly when no entry is rounded; results are clamped on the same interval again.", "quantifier": "all pairs of clamped splines, all points, all tolerances", "why_tests_cant": "Continuum of curves and points, arbitrary knot multiplicities.", "anchors": ["omgtools/basics/spline.py:BSpline.__add__", "omgtools/basics/spline.py:BSpline.__sub__", "omgtools/basics/spline.py:BSpline.__mul__", "omgtools/basics/spline.py:BSplineBasis.pairs"]}
{"id": "C84", "title": "Warm start of free-time problems", "statement": "As long as the stop criterion does not hold, the shift applied to the splines before re-solving is a fraction of the segment in [0,1] and simulation never runs past the last segment; with at least two updates to go the free-time problem sets the exact remaining time. The shift itself is not the travelled fraction: it is between one and two update times, the last-but-one update leaves the motion time unreduced, exactly two remaining updates shift the whole curve away, and with several segments the shift is a fraction of the total time and the first motion time can become negative.", "quantifier": "all motion times, update times, elapsed times", "why_tests_cant": "Continuum of times; the corners (exactly two updates left, short first segment) are not hit by samples.", "anchors": ["omgtools/problems/point2point.py:FreeTPoint2point.init_step", "omgtools/problems/multiframeproblem.py:MultiFrameProblem.init_step", "omgtools/problems/multiframeproblem.py:MultiFrameProblem.stop_criterium", "omgtools/problems/multiframeproblem.py:MultiFrameProblem.simulate"]}
{"id": "C85", "title": "The stored trajectory is the optimised one", "statement": "When a vehicle stores the segments found by the solver as one spline per signal, the stored spline and all its derivatives are, at every moment, those of the segments travelled one after the other in seconds: for the G-code problem whenever no evaluation site of the linear system is a joint (always for degree 2, for degree 3 exactly when the knot distances on both sides of every joint differ), for the multi-frame problem whenever the first signal moves through the first joint with non-zero derivatives. Otherwise the stored trajectory is wrong: two cubic segments of equal duration, or a standstill at the joint, are stored with twice the joint position, and connected segments with negative coordinates and derivatives lose the second segment.", "quantifier": "all segments, degrees, durations, numbers of signals and segments, all moments", "why_tests_cant": "Continuum of moments and segments; which knots are kept depends on signs and exact zeros that samples miss.", "anchors": ["omgtools/basics/spline_extra.py:concat_splines", "omgtools/vehicles/vehicle.py:Vehicle.store"]}
{"id": "C86", "title": "Exported constraint bounds", "statement": "In the exported C++ code, after any sequence of bound updates with arbitrary times and avoid flags, the bounds depend only on the last call: the constraints of an obstacle are active exactly when its flag is set, the others exactly when their shutdown condition does not hold; with all flags set these are the bounds of the Python problem. An obstacle constraint with a shutdown condition is never shut down. Obstacle parameters are predicted over one update time and taken from the entry with the number of the obstacle.", "quantifier": "all problems, histories of updates, times, flags", "why_tests_cant": "Unbounded sequences of updates and all combinations of flags.", "anchors": ["omgtools/export/export.py:Export._create_updateBounds", "omgtools/export/export.py:Export._create_fillParameterDict", "omgtools/basics/optilayer.py:OptiFather.update_bounds"]}
{"id": "C87", "title": "Exported shared variables", "statement": "The exported distributed problem collects the shared coefficients one after the other in declared order, and multiplies every shared spline that is one column by its shift matrix; of shared variables with several columns only the first is shifted.", "quantifier": "all lists of shared variables, coefficients, matrices", "why_tests_cant": "All declarations and index sets.", "anchors": ["omgtools/export/export_admm.py:ExportADMM._create_retrieveSharedVariables", "omgtools/export/export_admm.py:ExportADMM._create_transformSharedSplines"]}
{"id": "C88", "title": "Exported spline sampling", "statement": "The exported vehicle class builds the same knots as the Python basis, its table-based evaluation equals the Python evaluation of the spline at every point, and sampling with the stored derivative matrices gives exactly the Python derivatives in seconds at every time and for every order; its initial guess runs from the present state to the goal within the range between them.", "quantifier": "all degrees, knot vectors, coefficients, horizons, times, derivative orders", "why_tests_cant": "Continuum of times and coefficients, any degree.", "anchors": ["omgtools/export/vehicles/Vehicle.cpp:Vehicle::evalSpline", "omgtools/export/vehicles/Vehicle.cpp:Vehicle::sampleSplines", "omgtools/export/vehicles/Vehicle.cpp:Vehicle::createDerivativeMatrices", "omgtools/export/vehicles/Vehicle.cpp:Vehicle::Vehicle", "omgtools/export/vehicles/Holonomic.cpp:Holonomic::getInitSplineValue"]}
{"id": "C89", "title": "Exported prediction", "statement": "The exported prediction either reads the stored trajectory at update plus shift, or integrates the stored input from the measured state; it is defined exactly when update and shift fit in the stored samples. For the holonomic vehicle integration is exact for constant inputs, can be stopped and continued, and otherwise differs from the integral of the interpolated input by dt/3 times the change of the input; for state-dependent models every step starts from the initial state.", "quantifier": "all states, inputs, sample times, numbers of steps and shifts", "why_tests_cant": "Continuum of inputs and unbounded numbers of steps.", "anchors": ["omgtools/export/vehicles/Vehicle.cpp:Vehicle::predict", "omgtools/export/vehicles/Vehicle.cpp:Vehicle::integrate", "omgtools/export/point2point/Point2Point.cpp:Point2Point::Point2Point"]}
{"id": "C90", "title": "Exported time keeping", "statement": "After any history of solver verdicts the time of the exported problem is the number of successful updates times the update time, the splines have been shifted once for every knot interval passed, and the local time lies in the first interval; if all times are whole milliseconds local time and shifts add up to the time. With a prediction shift failed updates move the time, update times above a knot interval miss shifts, and knot intervals that are no whole milliseconds can give a local time of almost an interval right after a shift.", "quantifier": "all verdict histories, update times, horizons, numbers of intervals", "why_tests_cant": "Unbounded histories and exact borders of rounding.", "anchors": ["omgtools/export/point2point/Point2Point.cpp:Point2Point::update", "omgtools/export/point2point/Point2Point.cpp:Point2Point::fillParameterDict", "omgtools/export/export.py:Export._create_transformSplines"]}
{"id": "C91", "title": "Exported distributed time keeping", "statement": "In the exported distributed problem time stands still during the initial iterations and then advances with every successful x update, stepping back and repeating an update leaves the same state as doing it once, and the z update uses the time of the x update exactly during the initial iterations; stepping back twice does not go back twice.", "quantifier": "all verdict histories and numbers of initial iterations", "why_tests_cant": "Unbounded histories.", "anchors": ["omgtools/export/point2point/admm/ADMMPoint2Point.cpp:ADMMPoint2Point::update1", "omgtools/export/point2point/admm/ADMMPoint2Point.cpp:ADMMPoint2Point::update2", "omgtools/export/point2point/admm/ADMMPoint2Point.cpp:ADMMPoint2Point::stepBack"]}
{"id": "C92", "title": "SVG figures to G-code", "statement": "For a figure without gaps that starts with a line, every line is cut from its first to its second end and every circular path is cut in one arc about its centre and in its own sense of rotation, whichever of its ends the file starts from. Not so for lines given from their second end, translated figures, paths without curves, paths at the beginning, several cubics after one letter and circles of two halves.", "quantifier": "all figures of lines and circular paths, all coordinates", "why_tests_cant": "Real coordinates, any number of elements and both directions of every path.", "anchors": ["omgtools/gui/svg_reader.py:SVGReader.get_gcode_description"]}
{"id": "C93", "title": "Graphical interface and environment", "statement": "After any sequence of user actions the canvas items are the obstacles of the list, in order, at their place and size; obstacles and room are the picture of the canvas in world coordinates; start and goal are the last two right clicks and, for a frame at the origin, the points that were clicked (off by the position of the frame otherwise); clicks snap to the nearest grid line; selecting hits rectangles within twice their size.", "quantifier": "all sequences of user actions, all frames", "why_tests_cant": "Unbounded event sequences, real coordinates.", "anchors": ["omgtools/gui/gui.py:EnvironmentGUI.make_obstacle", "omgtools/gui/gui.py:EnvironmentGUI.remove_obstacle", "omgtools/gui/gui.py:EnvironmentGUI.move_obstacle", "omgtools/gui/gui.py:EnvironmentGUI.build_environment", "omgtools/gui/gui.py:EnvironmentGUI.pixel_to_world"]}
{"id": "C94", "title": "SVG figures to obstacles", "statement": "A rectangle or circle of a translated figure becomes the obstacle that covers it; without a translation loading fails. Lines become rectangles of the size of the stroke but pushed aside by half the stroke width.", "quantifier": "all figures", "why_tests_cant": "All reals.", "anchors": ["omgtools/gui/svg_reader.py:SVGReader.convert_basic_shapes", "omgtools/gui/svg_reader.py:SVGReader.convert_lines", "omgtools/gui/gui.py:EnvironmentGUI.add_obstacle"]}
{"id": "C95", "title": "Corridor frames are free of stationary obstacles", "statement": "The base of a corridor frame has no stationary obstacle and contains its last waypoint, its waypoints are consecutive points of the path from the closest one on, scaling up keeps this, and for a path that never turns back the vehicle keeps its margin and all waypoints are inside; for other paths the frame can lose the vehicle.", "quantifier": "all paths, start positions and obstacle lists", "why_tests_cant": "Rational coordinates, unbounded paths.", "anchors": ["omgtools/environment/frame.py:CorridorFrame.create_corridor_base_frame", "omgtools/environment/frame.py:CorridorFrame.scale_up_frame", "omgtools/environment/frame.py:Frame.find_closest_waypoint"]}
{"id": "C96", "title": "The last waypoint of a frame is reachable", "statement": "After make_last_waypoint_reachable the last waypoint keeps the vehicle size from the border, by enlarging the frame or by moving the waypoint along its segment, and the list is otherwise a beginning of the old one; not so for points on the right or upper side, far outside, or next to an earlier waypoint without margin.", "quantifier": "all frames, waypoint lists and margins", "why_tests_cant": "Rational coordinates.", "anchors": ["omgtools/environment/frame.py:Frame.make_last_waypoint_reachable", "omgtools/environment/frame.py:Frame.distance_to_border"]}
{"id": "C97", "title": "Obstacles found in a frame", "statement": "Stationary obstacles are found exactly when their bounding box meets the frame, moving ones exactly when a tracked point is in the frame at a sampled time, so a point that stays for a sample time is noticed; fast, covering and turned obstacles are missed, some obstacles are in neither list and some in both, and obstacles that were not to be avoided are avoided afterwards.", "quantifier": "all frames, obstacles, velocities and sample times", "why_tests_cant": "Rational coordinates, any number of obstacles.", "anchors": ["omgtools/environment/frame.py:Frame.get_stationary_obstacles", "omgtools/environment/frame.py:Frame.get_moving_obstacles", "omgtools/environment/frame.py:Frame.point_in_frame"]}
{"id": "C98", "title": "Shift frames have no usable end", "statement": "A shift frame has None as its last waypoint or an empty end point, and none is made when the path stays in the first box.", "quantifier": "all paths that do not leave their goal again", "why_tests_cant": "Rational coordinates, unbounded paths.", "anchors": ["omgtools/environment/frame.py:ShiftFrame.__init__"]}
{"id": "C99", "title": "L-shaped frames", "statement": "Making an L-shape of two frames changes a frame only when the result has no stationary obstacle and contains the vehicle, respectively its last waypoint, keeps frames in the room, and uses a point that is on the segment and on the border; the last waypoint of the first frame can fall outside.", "quantifier": "all pairs of frames", "why_tests_cant": "Rational coordinates.", "anchors": ["omgtools/environment/frame.py:CorridorFrame.create_l_shape", "omgtools/environment/frame.py:CorridorFrame.find_intersection_line_segment_frame"]}
{"id": "C100", "title": "Moving obstacles of the scheduler's frames", "statement": "After each solve every frame lists the obstacles that pass through it in its remaining motion time. At the start, after moving on, and always when one frame is used, every room of the local problem has the obstacles of its frame; otherwise the local problem is made again exactly when the list of the last frame changed, so that an obstacle that starts to move in an earlier frame is never avoided.", "quantifier": "all reachable states of the scheduler, all obstacles", "why_tests_cant": "Any number of solves and obstacles.", "anchors": ["omgtools/problems/schedulerproblem.py:SchedulerProblem.solve", "omgtools/problems/schedulerproblem.py:SchedulerProblem.generate_problem"]}
{"id": "C101", "title": "Configurations in which the scheduler starts", "statement": "Without options, with several frames and fixed time, with corridor frames without the user's scale_up_fine, with another frame type, with the default frames, with three or more frames and the goal in the first one, with an L-shape and the goal in the only frame, and with the vehicle at the goal the scheduler raises; shift frames run only with two frames and the motion then never stops.", "quantifier": "all worlds, options, planners and runs", "why_tests_cant": "All option combinations and paths.", "anchors": ["omgtools/problems/schedulerproblem.py:SchedulerProblem.__init__", "omgtools/problems/schedulerproblem.py:SchedulerProblem.create_frames", "omgtools/problems/schedulerproblem.py:SchedulerProblem.get_init_guess", "omgtools/problems/schedulerproblem.py:SchedulerProblem.stop_criterium"]}
{"id": "C102", "title": "Motion times of the scheduler", "statement": "At the start the motion time of a frame is the time for the straight line from its first to its last waypoint at half the maximum speed, the first waypoint of the first frame being the vehicle; after moving on the first time is the sum of the remaining times of the first two frames, the next ones are the solved times, the last one the straight line again. For a holonomic vehicle it does not exist exactly when the waypoints end where they begin, and it can be too short for the way along the waypoints.", "quantifier": "all worlds, options and runs", "why_tests_cant": "Unbounded waypoint lists, rational coordinates.", "anchors": ["omgtools/problems/schedulerproblem.py:SchedulerProblem.get_init_guess", "omgtools/problems/schedulerproblem.py:SchedulerProblem.get_init_guess_new_frame", "omgtools/problems/schedulerproblem.py:SchedulerProblem.get_init_guess_combined_frame"]}
{"id": "C103", "title": "Target of the scheduler's local problem", "statement": "In every reachable state the local problem has a target: for a vehicle without heading the last waypoint of the last frame, for a Dubins vehicle the pose of the goal when the frames end there, and otherwise the last waypoint with the direction from the waypoint before it towards the second waypoint of the next frame. With corridor frames and a holonomic vehicle the target is always the end point of the last frame, so a run in which the last frame ends at the goal aims at the goal.", "quantifier": "all worlds, options and runs", "why_tests_cant": "Unbounded runs.", "anchors": ["omgtools/problems/schedulerproblem.py:SchedulerProblem.get_init_guess", "omgtools/problems/schedulerproblem.py:SchedulerProblem.solve"]}
{"id": "C104", "title": "Shifting the first knots", "statement": "shift_knot1_fwd returns as many coefficients as it gets; on the basis whose first degree+1 knots are moved to a point of the first knot interval they describe exactly the same function on the rest of the domain.", "quantifier": "all bases with non-decreasing knots, all coefficients and all points of the first knot interval", "why_tests_cant": "Real coefficients, any degree and number of knots.", "anchors": ["omgtools/basics/spline_extra.py:shift_knot1_fwd", "omgtools/basics/spline_extra.py:shiftfirstknot_T"]}
{"id": "C105", "title": "Shifting the first knots back", "statement": "shift_knot1_bwd undoes shift_knot1_fwd and is undone by it, and its result describes the same function where both bases are defined. It raises an IndexError exactly when the degree is positive and the basis has no inner knots.", "quantifier": "all bases with non-decreasing knots, all coefficients and all points of the first knot interval", "why_tests_cant": "Real coefficients, any degree; inverse of a matrix of any size.", "anchors": ["omgtools/basics/spline_extra.py:shift_knot1_bwd", "omgtools/basics/spline_extra.py:shiftfirstknot_T"]}
{"id": "C106", "title": "Extrapolation", "statement": "extrapolate keeps all but the last degree+1 coefficients; its result is, up to the zeroing of small entries (at most the threshold times the sum of the absolute coefficients), the old spline on the old domain and the polynomial of its last interval up to the new right end. It does not raise for a single last inner knot that lies not beyond the last degree evaluation points, in particular for equidistant knots and degrees 1 to 3; without inner knots it raises.", "quantifier": "all clamped bases, coefficients, lengths of the added interval", "why_tests_cant": "Real coefficients, any degree, number of knots and multiplicity of the last inner knot.", "anchors": ["omgtools/basics/spline_extra.py:extrapolate", "omgtools/basics/spline_extra.py:extrapolate_T"]}
{"id": "C107", "title": "Shifting over a knot", "statement": "For clamped knots that start at 0, with single first and last inner knots and at least as many intervals as the degree, shift_over_knot gives the spline from its second knot on, followed by the polynomial of its last interval over one more interval. With equidistant knots the result is, on the same basis, the spline one interval later; this works without error for degrees 1 to 3. It fails for knots that do not start at 0, for repeated inner knots and for fewer intervals than the degree.", "quantifier": "all clamped bases and coefficients", "why_tests_cant": "Real coefficients, any degree and number of knots.", "anchors": ["omgtools/basics/spline_extra.py:shift_over_knot", "omgtools/basics/spline_extra.py:shiftoverknot_T"]}
{"id": "C108", "title": "Constraints on coefficients hold at all times", "statement": "define_constraint hands the coefficients of a spline expression to the solver. If they are within the bounds, so is the value of the expression at every time, exactly for expressions that combine splines only with numbers, and otherwise up to an explicit multiple of the threshold below which the transformations zero their entries. Such simple expressions never raise. An expression that is a plain number is not constrained at all, and values within the bounds do not imply coefficients within the bounds.", "quantifier": "all clamped splines on the unit interval, all expressions of sums, products, powers and derivatives, all times", "why_tests_cant": "Real coefficients and every time between the samples.", "anchors": ["omgtools/basics/optilayer.py:OptiChild.define_constraint", "omgtools/basics/spline.py:BSpline.__add__", "omgtools/basics/spline.py:BSpline.__mul__", "omgtools/basics/spline.py:BSpline.__pow__"]}
{"id": "C109", "title": "Constraints with skipped coefficients", "statement": "With skip=[s0, s1], not both 0, the constraint holds from the knot s0 intervals after the start to the knot s1 intervals before the end. In the skipped intervals it can fail, and skip=[0, 0] drops every coefficient.", "quantifier": "all clamped splines, all bounds, all times", "why_tests_cant": "Real coefficients and every time between the samples.", "anchors": ["omgtools/basics/optilayer.py:OptiChild.define_constraint"]}
{"id": "C110", "title": "Solved holonomic problem is a trip within limits", "statement": "If the coefficients satisfy the constraints of a holonomic vehicle with norm_inf limits, its initial constraints and its terminal constraints, the trajectory starts in the given state with the given velocity, ends in the goal at rest, its velocity and acceleration are the derivatives of its position and within all limits at every time. With norm_2 limits the squared norms are within the limits up to an explicit multiple of the zeroing threshold.", "quantifier": "all limits, horizons, start times, states, goals and coefficient vectors", "why_tests_cant": "Every time between the samples, real coefficients.", "anchors": ["omgtools/vehicles/holonomic.py:Holonomic.define_trajectory_constraints", "omgtools/vehicles/holonomic.py:Holonomic.get_initial_constraints", "omgtools/vehicles/holonomic.py:Holonomic.get_terminal_constraints", "omgtools/basics/optilayer.py:OptiChild.define_constraint"]}
{"id": "C111", "title": "Solved collision constraints keep bodies apart at all times", "statement": "If the coefficients satisfy the hyperplane constraints of a vehicle and an obstacle, the convex bodies are at least radius plus radius plus remaining safety distance apart at every time, in the plane and in space; likewise two vehicles; room constraints keep the whole vehicle in the room. With the zeroing of small entries the plane case holds up to an explicit multiple of the threshold. A disc avoiding a measured disc keeps this distance from the place where Newton's law puts the obstacle.", "quantifier": "all shapes given by checkpoints, all trajectories, hyperplanes and times", "why_tests_cant": "Every time between the samples, real coefficients, every point of the bodies.", "anchors": ["omgtools/vehicles/vehicle.py:Vehicle.define_collision_constraints_2d", "omgtools/environment/obstacle.py:Obstacle2D.define_collision_constraints", "omgtools/environment/environment.py:Environment.define_collision_constraints", "omgtools/basics/optilayer.py:OptiChild.define_constraint"]}
{"id": "C112", "title": "The simulated motion", "statement": "Running the simulation never raises, and the log records, sample by sample, one continuous motion with a derivative at every time: it starts in the given state with the given velocity, sample j is at j times the sample time, every plan starts where the vehicle is, and until the next update the motion is the plan (ideal options) or has the velocity that interpolates the planned velocities at the samples (default options).", "quantifier": "all settings whose update time is a whole number of samples and fits the horizon, all initial states, obstacles and numbers of updates, all answers of the solver that satisfy the constraints of their problem", "why_tests_cant": "Any number of updates, arbitrary solver answers, every time between the samples.", "anchors": ["omgtools/execution/simulator.py:Simulator.run", "omgtools/execution/simulator.py:Simulator.update", "omgtools/execution/deployer.py:Deployer.update", "omgtools/vehicles/vehicle.py:Vehicle.predict", "omgtools/vehicles/vehicle.py:Vehicle.simulate", "omgtools/vehicles/vehicle.py:Vehicle.store", "omgtools/problems/point2point.py:FixedTPoint2point.simulate"]}
{"id": "C113", "title": "Limits over the whole simulation", "statement": "Over the whole simulation of a planar holonomic vehicle with norm_inf limits the velocity is within its limits at every time, and between any two times it changes by at most the acceleration limits times the time between them, also across updates and with the default options.", "quantifier": "all settings whose update time is a whole number of samples and fits the horizon, all initial states, obstacles and numbers of updates, all answers of the solver that satisfy the constraints of their problem", "why_tests_cant": "Any number of updates, arbitrary solver answers, every time between the samples.", "anchors": ["omgtools/execution/simulator.py:Simulator.run", "omgtools/vehicles/holonomic.py:Holonomic.define_trajectory_constraints", "omgtools/vehicles/vehicle.py:Vehicle.simulate"]}
{"id": "C114", "title": "Distance from the plan", "statement": "With ideal options the vehicle is on its plan; with the default options it is t seconds after an update at most (amax-amin) times sample time / 4 times t away from it.", "quantifier": "all settings whose update time is a whole number of samples and fits the horizon, all initial states, obstacles and numbers of updates, all answers of the solver that satisfy the constraints of their problem", "why_tests_cant": "Any number of updates, arbitrary solver answers, every time between the samples.", "anchors": ["omgtools/vehicles/vehicle.py:Vehicle.simulate", "omgtools/vehicles/vehicle.py:Vehicle.predict", "omgtools/vehicles/vehicle.py:Vehicle.integrate_ode"]}
{"id": "C115", "title": "Safety over the whole simulation", "statement": "At every time of the simulation until an obstacle jumps within the current update interval, the vehicle is at least radius plus radius plus remaining safety distance away from where the obstacle really is, less the distance from the plan and an explicit multiple of the zeroing threshold.", "quantifier": "all settings whose update time is a whole number of samples and fits the horizon, all initial states, obstacles and numbers of updates, all answers of the solver that satisfy the constraints of their problem, all obstacles with scheduled jumps", "why_tests_cant": "Any number of updates, arbitrary solver answers, every time between the samples.", "anchors": ["omgtools/environment/environment.py:Environment.define_collision_constraints", "omgtools/environment/obstacle.py:Obstacle2D.define_collision_constraints", "omgtools/environment/obstacle.py:ObstaclexD.simulate", "omgtools/execution/simulator.py:Simulator.run"]}
{"id": "C116", "title": "The simulation stops at the goal", "statement": "If run stops, the last recorded state is within the tolerance of the goal and the last recorded velocity is at most the tolerance; the log has one entry per sample until then.", "quantifier": "all settings whose update time is a whole number of samples and fits the horizon, all initial states, obstacles and numbers of updates, all answers of the solver that satisfy the constraints of their problem, all tolerances below 1", "why_tests_cant": "Any number of updates, arbitrary solver answers, every time between the samples.", "anchors": ["omgtools/execution/simulator.py:Simulator.run", "omgtools/problems/point2point.py:Point2pointProblem.stop_criterium", "omgtools/vehicles/holonomic.py:Holonomic.check_terminal_conditions"]}
{"id": "C117", "title": "The reported objective bounds the distance to the goal", "statement": "The objective that is accumulated over the updates is an upper bound of the integral of the distance to the goal (1-norm) along the simulated motion; with the default options up to the distance from the plan.", "quantifier": "all settings whose update time is a whole number of samples and fits the horizon, all initial states, obstacles and numbers of updates, all answers of the solver that satisfy the constraints of their problem", "why_tests_cant": "Any number of updates, arbitrary solver answers, every time between the samples.", "anchors": ["omgtools/problems/point2point.py:FixedTPoint2point.simulate", "omgtools/problems/point2point.py:FixedTPoint2point.compute_partial_objective"]}
{"id": "C118", "title": "Options for prediction and simulation must agree", "statement": "When exactly one of ideal_prediction and ideal_update is set, the state from which the next problem is solved can differ from the state of the simulated vehicle.", "quantifier": "both combinations of the options", "why_tests_cant": "The difference appears only for accelerating motions.", "anchors": ["omgtools/vehicles/vehicle.py:Vehicle.predict", "omgtools/vehicles/vehicle.py:Vehicle.simulate"]}
{"id": "C119", "title": "The simulated motion with free end time", "statement": "With a free end time no update raises as long as the first motion takes at least a sample; the log records one continuous motion with a derivative at every time, which starts in the given state with the given velocity; every plan starts where the vehicle is and is followed for an update or, if it is shorter, for its whole samples; every problem sees the obstacles where they are.", "quantifier": "all settings whose update time is a whole number of samples, all initial states, obstacles and numbers of updates, all answers (splines and motion time) that satisfy the constraints of their problem; plans shorter than an update sampled within their motion time", "why_tests_cant": "Any number of updates, arbitrary solver answers, every time between the samples.", "anchors": ["omgtools/problems/point2point.py:FreeTPoint2point.store", "omgtools/problems/point2point.py:FreeTPoint2point.simulate", "omgtools/execution/simulator.py:Simulator.run", "omgtools/execution/deployer.py:Deployer.update", "omgtools/vehicles/vehicle.py:Vehicle.simulate"]}
{"id": "C120", "title": "Limits with free end time", "statement": "Over the whole simulation with free end time of a planar holonomic vehicle with norm_inf limits the velocity is within its limits at every time and changes between any two times by at most the acceleration limits times the time between them.", "quantifier": "all settings whose update time is a whole number of samples, all initial states, obstacles and numbers of updates, all answers (splines and motion time) that satisfy the constraints of their problem; plans shorter than an update sampled within their motion time", "why_tests_cant": "Any number of updates, arbitrary solver answers, every time between the samples.", "anchors": ["omgtools/problems/point2point.py:FreeTPoint2point.simulate", "omgtools/vehicles/holonomic.py:Holonomic.define_trajectory_constraints"]}
{"id": "C121", "title": "Distance from the plan with free end time", "statement": "With ideal options the vehicle is on its plan; with the default options position and velocity differ from the plan by at most (amax-amin) times sample time / 4, the position times the time since the update.", "quantifier": "all settings whose update time is a whole number of samples, all initial states, obstacles and numbers of updates, all answers (splines and motion time) that satisfy the constraints of their problem; plans shorter than an update sampled within their motion time", "why_tests_cant": "Any number of updates, arbitrary solver answers, every time between the samples.", "anchors": ["omgtools/problems/point2point.py:FreeTPoint2point.simulate", "omgtools/vehicles/vehicle.py:Vehicle.integrate_ode"]}
{"id": "C122", "title": "Safety with free end time", "statement": "At every time of a simulation with free end time, until an obstacle jumps within the current update interval, the vehicle keeps radius plus radius plus remaining safety distance from where the obstacle really is, less the distance from the plan and an explicit multiple of the zeroing threshold.", "quantifier": "all settings whose update time is a whole number of samples, all initial states, obstacles and numbers of updates, all answers (splines and motion time) that satisfy the constraints of their problem; plans shorter than an update sampled within their motion time", "why_tests_cant": "Any number of updates, arbitrary solver answers, every time between the samples.", "anchors": ["omgtools/problems/point2point.py:FreeTPoint2point.simulate", "omgtools/environment/environment.py:Environment.define_collision_constraints"]}
{"id": "C123", "title": "Arrival with free end time", "statement": "At the end of the log the vehicle is no further from the goal than its velocity limits allow in the part of the last plan that was not carried out (less than a sample when the plan is shorter than an update), plus the distance from the plan; with terminal constraints on the derivatives its speed is bounded likewise. A plan shorter than a sample is left out and the vehicle stays that far from the goal.", "quantifier": "all settings whose update time is a whole number of samples, all initial states, obstacles and numbers of updates, all answers (splines and motion time) that satisfy the constraints of their problem; plans shorter than an update sampled within their motion time", "why_tests_cant": "Any number of updates, arbitrary solver answers, every time between the samples.", "anchors": ["omgtools/problems/point2point.py:FreeTPoint2point.stop_criterium", "omgtools/problems/point2point.py:FreeTPoint2point.define_terminal_constraints", "omgtools/problems/point2point.py:FreeTPoint2point.simulate", "omgtools/problems/point2point.py:FreeTPoint2point.store"]}
{"id": "C124", "title": "Plans end with a pause", "statement": "A plan that satisfies the terminal constraints on all derivatives is exactly at the goal during its whole last knot interval, so the motion time contains a pause of one knot interval.", "quantifier": "all cubic plans on clamped knots, all goals and motion times", "why_tests_cant": "Holds for all real times of the interval.", "anchors": ["omgtools/vehicles/holonomic.py:Holonomic.get_terminal_constraints", "omgtools/problems/point2point.py:FreeTPoint2point.define_terminal_constraints"]}
{"id": "C125", "title": "Stop, objective and termination with free end time", "statement": "The run stops in the first update whose motion time is below the update time or in which the goal is reached. The reported objective is the time of the updates before plus the last motion time (without a last motion below a sample, a whole update if the goal was reached); the last sample is less than a sample before it. If every motion time is at least an update shorter than the one before, the run ends and the objective is at most the first motion time.", "quantifier": "all settings whose update time is a whole number of samples, all initial states, obstacles and numbers of updates, all answers (splines and motion time) that satisfy the constraints of their problem; plans shorter than an update sampled within their motion time", "why_tests_cant": "Any number of updates, arbitrary solver answers, every time between the samples.", "anchors": ["omgtools/problems/point2point.py:FreeTPoint2point.stop_criterium", "omgtools/problems/point2point.py:FreeTPoint2point.compute_objective", "omgtools/problems/point2point.py:FreeTPoint2point.simulate", "omgtools/execution/simulator.py:Simulator.run"]}
{"id": "C126", "title": "A first motion shorter than a sample", "statement": "If the first accepted motion time is below the sample time, the first update raises instead of stopping: nothing is stored and the deployer reads trajectories that do not exist.", "quantifier": "a concrete accepted answer", "why_tests_cant": "Needs a start this close to the goal.", "anchors": ["omgtools/problems/point2point.py:FreeTPoint2point.store", "omgtools/execution/deployer.py:Deployer.update"]}
{"id": "C127", "title": "Columns of the signals with free end time", "statement": "With the default options a motion time just below a whole number of samples gives the state one column fewer than the other signals, because one number of samples is rounded and the other truncated.", "quantifier": "a concrete motion time", "why_tests_cant": "Depends on the seventh decimal of the motion time.", "anchors": ["omgtools/vehicles/vehicle.py:Vehicle.simulate", "omgtools/vehicles/vehicle.py:Vehicle.integrate_ode"]}
{"id": "C128", "title": "Guesses are straight lines", "statement": "get_init_spline_value of Holonomic, Holonomic1D, Holonomic3D, Quadrotor and SimpleQuadrotor3D gives coefficients whose splines run along the straight line from the state to the goal, with one parametrisation for all components that goes from 0 to 1 and never turns back. For HolonomicOrient this holds for the position; the heading of the guess is 0 whatever the state is (refuted for the heading).", "quantifier": "all clamped bases with a continuous derivative, all states and goals", "why_tests_cant": "A test compares the guess for a few bases and goals; the property is about the curve of the spline at every parameter value for every basis.", "anchors": ["omgtools/vehicles/holonomic.py:Holonomic.get_init_spline_value", "omgtools/vehicles/holonomic3d.py:Holonomic3D.get_init_spline_value", "omgtools/vehicles/holonomicorient.py:HolonomicOrient.get_init_spline_value", "omgtools/vehicles/quadrotor3d_simple.py:SimpleQuadrotor3D.get_init_spline_value"]}
{"id": "C129", "title": "Quadrotor guesses start and end at rest", "statement": "All derivatives of the splines of a Quadrotor guess, up to the degree, are zero at the start and at the end, if the basis has at least two more functions than twice the degree.", "quantifier": "all clamped bases with a continuous derivative, all states and goals", "why_tests_cant": "A test compares the guess for a few bases and goals; the property is about the curve of the spline at every parameter value for every basis.", "anchors": ["omgtools/vehicles/quadrotor.py:Quadrotor.get_init_spline_value"]}
{"id": "C130", "title": "Guesses for headings", "statement": "For AGV, Bicycle, Dubins and Quadrotor3D the guess has no speed, and its angle goes from the state to the goal without turning back; for a trailer the same holds for its own heading, which stays when no goal heading is set, and the other columns are those of the vehicle that pulls it, which needs a basis of the same size.", "quantifier": "all clamped bases with a continuous derivative, all states and goals with angles within (-pi, pi)", "why_tests_cant": "A test compares the guess for a few bases and goals; the property is about the curve of the spline at every parameter value for every basis.", "anchors": ["omgtools/vehicles/agv.py:AGV.get_init_spline_value", "omgtools/vehicles/dubins.py:Dubins.get_init_spline_value", "omgtools/vehicles/quadrotor3d.py:Quadrotor3D.get_init_spline_value", "omgtools/vehicles/trailer.py:Trailer.get_init_spline_value"]}
{"id": "C131", "title": "Guesses through several rooms", "statement": "When consecutive rooms are overlapping upright rectangles, the state lies in the first and the goal in the last, reinitialize of a multi-frame problem gives every segment a guess that stays in its own room at every parameter value; the segments join end to end and lead from the state to the goal. Vehicles of other classes than Holonomic raise.", "quantifier": "all numbers of rooms, all overlapping rectangles, all states and goals in them, all numbers of Holonomic vehicles", "why_tests_cant": "Every room sequence would have to be sampled; the guess must stay inside at all parameter values.", "anchors": ["omgtools/problems/multiframeproblem.py:MultiFrameProblem.reinitialize", "omgtools/vehicles/holonomic.py:Holonomic.get_init_spline_value"]}
{"id": "C132", "title": "reinitialize sets the guesses", "statement": "Point2point.reinitialize gives every vehicle's segments the vehicle's own guess, with the shape of the variables, and changes nothing else; it raises if a vehicle has no guess for each of its segments, so with more than one segment, and for Tool.", "quantifier": "all lists of vehicles of all classes, all numbers of segments", "why_tests_cant": "Quantifies over all lists of vehicles and trailers behind trailers.", "anchors": ["omgtools/problems/point2point.py:Point2pointProblem.reinitialize", "omgtools/vehicles/tool.py:Tool", "omgtools/vehicles/trailer.py:Trailer.get_init_spline_value"]}
{"id": "C133", "title": "Resetting the guess during a run", "statement": "reset_init_guess with a list of arrays puts it into the variables of every vehicle if it fits all of them, the same for all, and raises otherwise. Without an argument it raises for every list of vehicles, so solve raises when the solver runs out of time at any other time than zero; with any other status the solver's answer is kept.", "quantifier": "all vehicles, guesses and solver statuses", "why_tests_cant": "Tests do not let the solver run out of time.", "anchors": ["omgtools/problems/problem.py:Problem.reset_init_guess", "omgtools/problems/problem.py:Problem.solve"]}
{"id": "C134", "title": "Guesses at the definition of the variables", "statement": "set_init_spline_values accepts exactly the arrays with the shape of the variables; the next define_splines starts from them, and only that one. After a refused array the ones before it are used and zeros for the others. Without a guess that was set the variables start at zero, not at the vehicle's own guess (refuted).", "quantifier": "all bases, numbers of splines and segments, all lists of arrays", "why_tests_cant": "Quantifies over all lists of arrays.", "anchors": ["omgtools/vehicles/vehicle.py:Vehicle.set_init_spline_values", "omgtools/vehicles/vehicle.py:Vehicle.define_splines"]}
{"id": "C135", "title": "Goal headings outside the range of the arctangent", "statement": "A vehicle whose heading comes from a spline for the tangent of the half angle never counts as arrived at a goal heading that lies further than the tolerance outside (-pi, pi), although constraints and guess are those of the equivalent heading within the range; the same holds for a trailer.", "quantifier": "all states, splines, inputs and tolerances below 1", "why_tests_cant": "No number of simulated steps shows that the run never ends.", "anchors": ["omgtools/vehicles/agv.py:AGV.check_terminal_conditions", "omgtools/vehicles/dubins.py:Dubins.check_terminal_conditions", "omgtools/vehicles/bicycle.py:Bicycle.check_terminal_conditions", "omgtools/vehicles/trailer.py:Trailer.check_terminal_conditions"]}
{"id": "C136", "title": "Runs after each other", "statement": "After any sequence of runs and pauses, a run never raises: it starts where the vehicle is (after the first run with velocity zero), appends one continuous motion to the log, and ends at the first update at which position and velocity are within the tolerance, if the answers bring the vehicle there.", "quantifier": "all sequences of runs and pauses of whole numbers of samples, all settings whose update time is a whole number of samples, all initial states, goals and obstacles, all answers that satisfy the constraints of their problem", "why_tests_cant": "Any number of updates, arbitrary solver answers, every time between the samples.", "anchors": ["omgtools/execution/simulator.py:Simulator.run", "omgtools/execution/simulator.py:Simulator.sleep", "omgtools/execution/deployer.py:Deployer.reset", "omgtools/vehicles/vehicle.py:Vehicle.predict", "omgtools/vehicles/vehicle.py:Vehicle.simulate"]}
{"id": "C137", "title": "Limits in every run of a mission", "statement": "In every run after any sequence of runs and pauses the velocity is within its limits at every time and changes between any two times by at most the acceleration limits times the time between them.", "quantifier": "all sequences of runs and pauses of whole numbers of samples, all settings whose update time is a whole number of samples, all initial states, goals and obstacles, all answers that satisfy the constraints of their problem", "why_tests_cant": "Any number of updates, arbitrary solver answers, every time between the samples.", "anchors": ["omgtools/execution/simulator.py:Simulator.run", "omgtools/vehicles/holonomic.py:Holonomic.define_trajectory_constraints"]}
{"id": "C138", "title": "Pauses", "statement": "Sleeping after a run never raises; every column that is added has velocity zero and the same position: that of the vehicle with the default options, the end of the last plan with ideal updates. The clock advances by the pause and the objective does not change.", "quantifier": "all sequences of runs and pauses of whole numbers of samples, all settings whose update time is a whole number of samples, all initial states, goals and obstacles, all answers that satisfy the constraints of their problem", "why_tests_cant": "Any number of updates, arbitrary solver answers, every time between the samples.", "anchors": ["omgtools/execution/simulator.py:Simulator.sleep", "omgtools/problems/problem.py:Problem.sleep", "omgtools/vehicles/vehicle.py:Vehicle.simulate"]}
{"id": "C139", "title": "Safety in every run of a mission", "statement": "In every run the vehicle keeps radius plus radius plus remaining safety distance from where each obstacle really is after the time of all runs and pauses so far, although time stamps and clock may lag behind that time.", "quantifier": "all sequences of runs and pauses of whole numbers of samples, all settings whose update time is a whole number of samples, all initial states, goals and obstacles, all answers that satisfy the constraints of their problem", "why_tests_cant": "Any number of updates, arbitrary solver answers, every time between the samples.", "anchors": ["omgtools/execution/simulator.py:Simulator.run", "omgtools/environment/environment.py:Environment.define_collision_constraints", "omgtools/environment/obstacle.py:ObstaclexD.simulate"]}
{"id": "C140", "title": "The objective over several runs", "statement": "In every run the reported objective grows by at least the integral of the distance to the goal of that run along the motion. It is not the objective of the last run alone (refuted): it is never reset.", "quantifier": "all sequences of runs and pauses of whole numbers of samples, all settings whose update time is a whole number of samples, all initial states, goals and obstacles, all answers that satisfy the constraints of their problem", "why_tests_cant": "Any number of updates, arbitrary solver answers, every time between the samples.", "anchors": ["omgtools/problems/point2point.py:FixedTPoint2point.simulate", "omgtools/problems/point2point.py:FixedTPoint2point.compute_objective"]}
{"id": "C141", "title": "No jumps in the log of a mission", "statement": "With the default options consecutive columns of the log are never further apart than the velocity limits allow within a sample, also where a run, a pause or another run begins. With ideal updates this is refuted: a pause takes the vehicle in one sample to the end of its last plan.", "quantifier": "all sequences of runs and pauses of whole numbers of samples, all settings whose update time is a whole number of samples, all initial states, goals and obstacles, all answers that satisfy the constraints of their problem", "why_tests_cant": "Any number of updates, arbitrary solver answers, every time between the samples.", "anchors": ["omgtools/problems/problem.py:Problem.sleep", "omgtools/vehicles/vehicle.py:Vehicle.simulate", "omgtools/execution/simulator.py:Simulator.sleep"]}
{"id": "C142", "title": "Time stamps after a run", "statement": "When an update has at least two samples and the sample time is below a second, the first column after a run has the same time stamp as the last column of the run.", "quantifier": "all sequences of runs and pauses of whole numbers of samples, all settings whose update time is a whole number of samples, all initial states, goals and obstacles, all answers that satisfy the constraints of their problem", "why_tests_cant": "Any number of updates, arbitrary solver answers, every time between the samples.", "anchors": ["omgtools/execution/simulator.py:Simulator.run", "omgtools/execution/simulator.py:Simulator.update_timing"]}
{"id": "C143", "title": "Plane shapes as bodies", "statement": "The set kept free for a shape is spanned by the discs around its checkpoints: for a circle the disc, for a rectangle all points within 0.001 of the turned rectangle, for a beam all points within half its height of a segment as long as its width.", "quantifier": "all sizes, orientations, positions and headings", "why_tests_cant": "The drawings are filled polygons; a test compares finitely many points of finitely many shapes.", "anchors": ["omgtools/basics/shape.py:Circle.get_checkpoints", "omgtools/basics/shape.py:Polyhedron.get_checkpoints", "omgtools/basics/shape.py:Rectangle.get_vertices", "omgtools/basics/shape.py:Beam.get_vertices"]}
{"id": "C144", "title": "Regular polygons as bodies", "statement": "For a regular polyhedron with at least three faces it is all points within 0.001 of the turned region between its sides; that region contains the inscribed circle and lies in the circumscribed one.", "quantifier": "all sizes, orientations, positions and headings, all numbers of faces", "why_tests_cant": "Quantifies over all numbers of faces and all points.", "anchors": ["omgtools/basics/shape.py:RegularPolyhedron.get_vertices", "omgtools/basics/shape.py:RegularPolyhedron.__init__"]}
{"id": "C145", "title": "Solids as bodies", "statement": "For a sphere it is the ball; for a cuboid and a regular prism all points within 0.001 of the solid turned by roll, pitch and yaw; for a plate all points within half its height of the flat polygon.", "quantifier": "all sizes, orientations, positions and headings", "why_tests_cant": "The drawings are filled polygons; a test compares finitely many points of finitely many shapes.", "anchors": ["omgtools/basics/shape.py:Sphere.get_checkpoints", "omgtools/basics/shape.py:Polyhedron3D.get_checkpoints", "omgtools/basics/shape.py:Cuboid.get_vertices", "omgtools/basics/shape.py:RegularPrisma.get_vertices", "omgtools/basics/shape.py:Plate.__init__"]}
{"id": "C146", "title": "Canvas limits", "statement": "get_canvas_limits returns the smallest upright box around the shape: around the hull of the (turned) vertices of a polyhedron or solid, around the disc or ball of a circle or sphere.", "quantifier": "all sizes, orientations, positions and headings", "why_tests_cant": "Quantifies over all vertices and orientations.", "anchors": ["omgtools/basics/shape.py:Circle.get_canvas_limits", "omgtools/basics/shape.py:Polyhedron.get_canvas_limits", "omgtools/basics/shape.py:Sphere.get_canvas_limits", "omgtools/basics/shape.py:Polyhedron3D.get_canvas_limits"]}
{"id": "C147", "title": "Drawn shapes lie in what is kept free", "statement": "Every point of the drawing of a plane shape or solid, placed at a pose, lies in the body spanned by its checkpoints at that pose; a rectangle is drawn exactly as the turned rectangle. Refuted for a plate made of a beam.", "quantifier": "all sizes, orientations, positions and headings", "why_tests_cant": "The drawings are filled polygons; a test compares finitely many points of finitely many shapes.", "anchors": ["omgtools/basics/shape.py:Shape2D.draw", "omgtools/basics/shape.py:Shape3D.draw", "omgtools/basics/shape.py:Beam.get_surfaces", "omgtools/basics/shape.py:UFO.get_surfaces", "omgtools/basics/shape.py:Sphere.get_surfaces"]}
{"id": "C148", "title": "Pictures do not overlap", "statement": "When the collision constraints hold at an instant, every drawn point of the vehicle (holonomic with or without heading, Dubins with wheels and front, in space) is at least the safety distance minus the slack away from every drawn point of every obstacle.", "quantifier": "all shapes, obstacles, hyperplanes, safety distances, positions and headings other than half turns", "why_tests_cant": "The drawings are filled polygons; a test compares finitely many points of finitely many shapes.", "anchors": ["omgtools/environment/environment.py:Environment.define_collision_constraints", "omgtools/vehicles/vehicle.py:Vehicle.define_collision_constraints_2d", "omgtools/vehicles/vehicle.py:Vehicle.define_collision_constraints_3d", "omgtools/vehicles/dubins.py:Dubins.draw", "omgtools/vehicles/vehicle.py:Vehicle.draw"]}
{"id": "C149", "title": "Drawings of particular vehicles", "statement": "A Dubins disc is drawn within its radius, a bicycle within 0.6 of its length, a quadrotor up to exactly sqrt(1.04) of its radius. The body of a bicycle is not drawn within the disc kept free for it (refuted), so it can be drawn over an obstacle while all constraints hold with margin (refuted). An AGV is drawn within its rectangle if it is at most 0.8 long, not if it is longer or drawn as a car with steered wheels (refuted).", "quantifier": "all sizes, poses and steering angles", "why_tests_cant": "The drawings are filled polygons; a test compares finitely many points of finitely many shapes.", "anchors": ["omgtools/vehicles/bicycle.py:Bicycle.draw", "omgtools/vehicles/agv.py:AGV.draw", "omgtools/vehicles/dubins.py:Dubins.draw", "omgtools/vehicles/quadrotor.py:Quadrotor.draw", "omgtools/vehicles/quadrotor3d.py:Quadrotor3D.draw"]}
{"id": "C150", "title": "Trailers and the vehicle in front", "statement": "The drawn trailer keeps its distance from the drawn obstacles. The vehicle in front gets no collision constraints at all: the constraints are the same for every shape and heading of it, and it can be drawn over an obstacle while all constraints hold with margin (refuted).", "quantifier": "all shapes, obstacles, hyperplanes, positions, headings and lengths", "why_tests_cant": "The drawings are filled polygons; a test compares finitely many points of finitely many shapes.", "anchors": ["omgtools/vehicles/trailer.py:Trailer.define_collision_constraints", "omgtools/environment/environment.py:Environment.define_collision_constraints", "omgtools/vehicles/trailer.py:Trailer.draw"]}
{"id": "C151", "title": "Rooms, environments and several shapes in drawings", "statement": "A vehicle that does not turn is drawn within its upright rectangular room; a room with an orientation is drawn turned while its constraints are those of the upright one (refuted). Environment.draw succeeds exactly when every obstacle has the option draw; then it shows rooms and obstacles. A vehicle with more than one shape raises when its constraints are defined.", "quantifier": "all rooms, obstacles, shapes and positions", "why_tests_cant": "The drawings are filled polygons; a test compares finitely many points of finitely many shapes.", "anchors": ["omgtools/environment/environment.py:Environment.draw", "omgtools/vehicles/vehicle.py:Vehicle.define_collision_constraints_2d", "omgtools/environment/obstacle.py:Obstacle2D.draw"]}
{"id": "C152", "title": "Values of variables are read back", "statement": "set_variables stores an array under a variable of a child exactly when the value fits (a number fits every shape); get_variables then gives that array, or for a spline variable one spline per column over its basis. Every other variable keeps its value. A vector written for a child is read back in order.", "quantifier": "all families of children, histories of definitions, stores and values", "why_tests_cant": "tests solve one example and look at the motion; the stored arrays, the names they are kept under and the guess handed to the solver are never looked at for other families of variables", "anchors": ["omgtools/basics/optilayer.py:OptiFather.set_variables", "omgtools/basics/optilayer.py:OptiFather.get_variables"]}
{"id": "C153", "title": "The vector of all variables", "statement": "A vector of the right length (the sum of the sizes of all variables) is stored, and the same vector is handed out again; entry (i, j) of a variable stands behind all earlier variables, column by column. Other lengths raise. Storing what was handed out gives the same store.", "quantifier": "all families of children, stores and vectors", "why_tests_cant": "tests solve one example and look at the motion; the stored arrays, the names they are kept under and the guess handed to the solver are never looked at for other families of variables", "anchors": ["omgtools/basics/optilayer.py:OptiFather.set_variables", "omgtools/basics/optilayer.py:OptiFather.get_variables"]}
{"id": "C154", "title": "Initial values of the variables", "statement": "The last definition of a variable fixes its shape and its initial value (zero if none is given, numbered names for groups of splines); set_value replaces the value. init_variables stores these values in arrays of the right shapes.", "quantifier": "all histories of definitions and values", "why_tests_cant": "tests solve one example and look at the motion; the stored arrays, the names they are kept under and the guess handed to the solver are never looked at for other families of variables", "anchors": ["omgtools/basics/optilayer.py:OptiChild.define_spline_variable", "omgtools/basics/optilayer.py:OptiFather.init_variables", "omgtools/basics/optilayer.py:OptiChild.set_value"]}
{"id": "C155", "title": "Transforming the splines of a segment", "statement": "transform_primal_splines replaces exactly the spline variables whose name carries the number of a segment asked for (segment 0 if none is given) by the given function of their values, their basis and the transformation of that basis; all others keep their values. It raises when a name cannot be read. Refuted for ten or more segments (segment 1 also means segment 10) and for labels that contain seg.", "quantifier": "all families, names, stores, functions and segment arguments", "why_tests_cant": "tests solve one example and look at the motion; the stored arrays, the names they are kept under and the guess handed to the solver are never looked at for other families of variables", "anchors": ["omgtools/basics/optilayer.py:OptiFather.transform_primal_splines"]}
{"id": "C156", "title": "Transformations of the bases", "statement": "init_transformations gives every spline variable the transformation of its own basis; it raises exactly when the transformation of one of those bases does.", "quantifier": "all families and all functions of bases", "why_tests_cant": "tests solve one example and look at the motion; the stored arrays, the names they are kept under and the guess handed to the solver are never looked at for other families of variables", "anchors": ["omgtools/basics/optilayer.py:OptiFather.init_transformations"]}
{"id": "C157", "title": "Guess after a knot with fixed motion time", "statement": "Between knots the guess stays as it is. When a knot is passed, every spline of segment 0 becomes the old one a knot interval later, continued by its last polynomial piece, and no other variable changes. Hence the splines of the soft constraints stay behind, and a guess that met these constraints no longer does (refuted).", "quantifier": "all families with equidistant bases of degree 1 to 3, stores, and times", "why_tests_cant": "tests solve one example and look at the motion; the stored arrays, the names they are kept under and the guess handed to the solver are never looked at for other families of variables", "anchors": ["omgtools/problems/point2point.py:FixedTPoint2point.init_step", "omgtools/basics/optilayer.py:OptiFather.transform_primal_splines", "omgtools/basics/spline_extra.py:shift_over_knot"]}
{"id": "C158", "title": "Guess with free motion time", "statement": "After an update the motion time becomes the rest of it and the splines of segment 0 are taken over the rest of the motion: at the start, at the end and at one point per basis function; nothing else changes; with several frames only the first one is moved. The fraction used is update over the rest, so the guess does not start where the old motion is after the update time (refuted).", "quantifier": "all families with equidistant bases, stores, times, and any number of frames", "why_tests_cant": "tests solve one example and look at the motion; the stored arrays, the names they are kept under and the guess handed to the solver are never looked at for other families of variables", "anchors": ["omgtools/problems/point2point.py:FreeTPoint2point.init_step", "omgtools/problems/multiframeproblem.py:MultiFrameProblem.init_step", "omgtools/basics/spline_extra.py:shift_spline"]}
{"id": "C159", "title": "What solve stores", "statement": "solve stores the point of the solver, whatever its status, and resets the guess only when the time of the solver ran out after the first call; a point that is not feasible is used as it is (refuted). With a start time the guess is not moved before twice the start time, since that time is subtracted twice (refuted).", "quantifier": "all families, solvers, statuses and times", "why_tests_cant": "tests solve one example and look at the motion; the stored arrays, the names they are kept under and the guess handed to the solver are never looked at for other families of variables", "anchors": ["omgtools/problems/problem.py:Problem.solve", "omgtools/problems/point2point.py:FreeTPoint2point.init_step"]}
{"id": "C160", "title": "Standing still while sleeping", "statement": "The splines stored while sleeping have the end values of the last motion at all times, for every segment, and as many splines as the vehicle had.", "quantifier": "all vehicles with clamped bases, stores and numbers of segments", "why_tests_cant": "tests solve one example and look at the motion; the stored arrays, the names they are kept under and the guess handed to the solver are never looked at for other families of variables", "anchors": ["omgtools/problems/problem.py:Problem.sleep"]}
{"id": "C161", "title": "Polynomial pieces", "statement": "Sums, products, powers and derivatives of splines with one knot interval never raise up to degree 250, whatever the coefficients; the results have the expected degree, the coefficients are determined by the values, and raising the degree keeps the bounds on the coefficients.", "quantifier": "all coefficients, all expressions, all degrees up to 250", "why_tests_cant": "The inverse matrix computed by the operations exists for each degree; testing finitely many degrees by floating point says nothing about exact regularity.", "anchors": ["omgtools/basics/spline.py:BSpline.__mul__", "omgtools/basics/spline.py:BSpline.__add__", "omgtools/basics/spline.py:BSpline.__pow__", "omgtools/basics/spline.py:BSpline.derivative", "omgtools/basics/spline.py:BSplineBasis.transform"]}
{"id": "C162", "title": "Integrated position", "statement": "The position splines of a vehicle with integrated position start at the given position at the given time and their derivative is the speed along the heading, at every time; with a tolerance in the operations up to their drift.", "quantifier": "all splines on the unit interval with enough smoothness, all motion times, start times, start and end states, limits; all t between 0 and T", "why_tests_cant": "A test solves one problem and samples the result; the property is about the whole curve between the samples, for every solution.", "anchors": ["omgtools/vehicles/dubins.py:Dubins.integrate_once", "omgtools/vehicles/dubins.py:Dubins.get_terminal_constraints", "omgtools/vehicles/dubins.py:Dubins.splines2signals"]}
{"id": "C163", "title": "Trip of a Dubins vehicle", "statement": "A solution of the constraints of a Dubins vehicle is a trip: position, heading, speed and turning rate at the start are the given ones, at the end position and heading are the goal and the vehicle stands still, and in between it moves along its heading within its limits of speed and turning rate.", "quantifier": "all splines on the unit interval with enough smoothness, all motion times, start times, start and end states, limits; all t between 0 and T", "why_tests_cant": "A test solves one problem and samples the result; the property is about the whole curve between the samples, for every solution.", "anchors": ["omgtools/vehicles/dubins.py:Dubins.define_trajectory_constraints", "omgtools/vehicles/dubins.py:Dubins.get_initial_constraints", "omgtools/vehicles/dubins.py:Dubins.get_terminal_constraints", "omgtools/vehicles/dubins.py:Dubins.set_parameters"]}
{"id": "C164", "title": "Reach of a Dubins vehicle", "statement": "Between any two times the vehicle covers at most the maximal speed times the time and turns at most at the maximal rate; so no solution has a motion time shorter than distance and turn require.", "quantifier": "all splines on the unit interval with enough smoothness, all motion times, start times, start and end states, limits; all t between 0 and T", "why_tests_cant": "A test solves one problem and samples the result; the property is about the whole curve between the samples, for every solution.", "anchors": ["omgtools/vehicles/dubins.py:Dubins.define_trajectory_constraints", "omgtools/vehicles/dubins.py:Dubins.integrate_once"]}
{"id": "C165", "title": "Safe trip with heading", "statement": "If the constraints with a separating hyperplane are solved, every point of the turned body keeps at least the radii and the safety distance less the slack from every point of the moving obstacle, at every time.", "quantifier": "all splines on the unit interval with enough smoothness, all motion times, start times, start and end states, limits; all t between 0 and T; all bodies and obstacles given by checkpoints", "why_tests_cant": "A test solves one problem and samples the result; the property is about the whole curve between the samples, for every solution.", "anchors": ["omgtools/vehicles/vehicle.py:Vehicle.define_collision_constraints_2d", "omgtools/environment/environment.py:Environment.define_collision_constraints", "omgtools/environment/obstacle.py:Obstacle2D.define_collision_constraints", "omgtools/vehicles/dubins.py:Dubins.integrate_once"]}
{"id": "C166", "title": "Trip of a Bicycle and an AGV", "statement": "A solution of the constraints is a trip of the bicycle model: start and goal are met, speed between 0 and its limit, acceleration below its limit; while the vehicle moves the turning rate is the one of the steering angle, which with its rate keeps its limits.", "quantifier": "all splines on the unit interval with enough smoothness, all motion times, start times, start and end states, limits; all t between 0 and T", "why_tests_cant": "A test solves one problem and samples the result; the property is about the whole curve between the samples, for every solution.", "anchors": ["omgtools/vehicles/bicycle.py:Bicycle.define_trajectory_constraints", "omgtools/vehicles/bicycle.py:Bicycle.get_initial_constraints", "omgtools/vehicles/bicycle.py:Bicycle.get_terminal_constraints", "omgtools/vehicles/agv.py:AGV.define_trajectory_constraints"]}
{"id": "C167", "title": "Trip of a Trailer", "statement": "A solution of the constraints is a trip of vehicle and trailer: start and goal are met, the trailer is pulled by the vehicle without moving sideways by more than 1/1000, and the angle between both keeps its limits while both headings have the same sign.", "quantifier": "all splines on the unit interval with enough smoothness, all motion times, start times, start and end states, limits; all t between 0 and T", "why_tests_cant": "A test solves one problem and samples the result; the property is about the whole curve between the samples, for every solution.", "anchors": ["omgtools/vehicles/trailer.py:Trailer.define_trajectory_constraints", "omgtools/vehicles/trailer.py:Trailer.get_initial_constraints", "omgtools/vehicles/trailer.py:Trailer.get_terminal_constraints"]}
{"id": "C168", "title": "Trip of a Quadrotor3D", "statement": "Without substitution a solution of the constraints is a trip of the quadrotor in space: start and goal are met, at rest at the end, the accelerations are those of thrust and angles, and thrust, rates and angles keep their limits.", "quantifier": "all splines on the unit interval with enough smoothness, all motion times, start times, start and end states, limits; all t between 0 and T", "why_tests_cant": "A test solves one problem and samples the result; the property is about the whole curve between the samples, for every solution.", "anchors": ["omgtools/vehicles/quadrotor3d.py:Quadrotor3D.define_trajectory_constraints", "omgtools/vehicles/quadrotor3d.py:Quadrotor3D.get_initial_constraints", "omgtools/vehicles/quadrotor3d.py:Quadrotor3D.get_terminal_constraints", "omgtools/vehicles/quadrotor3d.py:Quadrotor3D.integrate_twice"]}
{"id": "C169", "title": "Trips of the flat quadrotors", "statement": "A solution of the constraints of a planar Quadrotor or a SimpleQuadrotor3D is a trip of that quadrotor: start and goal are met, hovering at the end, accelerations as thrust and angles say; planar: all limits kept; in space: for symmetric limits they are kept while the vertical acceleration is above free fall, the roll rate up to the larger of the limits of both rates.", "quantifier": "all splines on the unit interval with enough smoothness, all motion times, start times, start and end states, limits; all t between 0 and T", "why_tests_cant": "A test solves one problem and samples the result; the property is about the whole curve between the samples, for every solution.", "anchors": ["omgtools/vehicles/quadrotor.py:Quadrotor.define_trajectory_constraints", "omgtools/vehicles/quadrotor.py:Quadrotor.get_terminal_constraints", "omgtools/vehicles/quadrotor3d_simple.py:SimpleQuadrotor3D.define_trajectory_constraints", "omgtools/vehicles/quadrotor3d_simple.py:SimpleQuadrotor3D.get_initial_constraints"]}
{"id": "C170", "title": "Trips of the holonomic vehicles", "statement": "A solution of the constraints of a Holonomic1D, Holonomic3D or HolonomicOrient is a trip: start and goal are met, at rest at the end, velocity and acceleration (per axis or their norm) and the turning rate keep their limits.", "quantifier": "all splines on the unit interval with enough smoothness, all motion times, start times, start and end states, limits; all t between 0 and T", "why_tests_cant": "A test solves one problem and samples the result; the property is about the whole curve between the samples, for every solution.", "anchors": ["omgtools/vehicles/holonomic1d.py:Holonomic1D.define_trajectory_constraints", "omgtools/vehicles/holonomic3d.py:Holonomic3D.define_trajectory_constraints", "omgtools/vehicles/holonomicorient.py:HolonomicOrient.define_trajectory_constraints", "omgtools/vehicles/holonomicorient.py:HolonomicOrient.get_terminal_constraints"]}
{"id": "C171", "title": "Substituted positions", "statement": "With exact substitution the position made of the extra variables is the integrated one. Otherwise it stays within eps per axis of the real one, the goal is met up to eps and planned distances are kept up to sqrt 2 times eps. The real end velocity of a Quadrotor3D is not fixed: it can have any value although the planned one is zero (refuted).", "quantifier": "all splines on the unit interval with enough smoothness, all motion times, start times, start and end states, limits; all t between 0 and T", "why_tests_cant": "A test solves one problem and samples the result; the property is about the whole curve between the samples, for every solution.", "anchors": ["omgtools/vehicles/dubins.py:Dubins.define_trajectory_constraints", "omgtools/vehicles/quadrotor3d.py:Quadrotor3D.define_trajectory_constraints", "omgtools/vehicles/quadrotor3d.py:Quadrotor3D.get_terminal_constraints"]}
{"id": "C172", "title": "Planar teams stay apart", "statement": "If the constraints of define_intervehicle_collision_constraints hold, then in every segment and at every time any two points of the hulls of the checkpoints of two different planar vehicles, turned with their headings, are apart by both radii plus both safety distances less the slacks, which are between 0 and the safety distance.", "quantifier": "all numbers of vehicles, segments and checkpoints, all labels, radii, safety distances, headings and configurations, all splines that satisfy the constraints, all times between start and end", "why_tests_cant": "A test solves for a few vehicles and checks samples; the statement is about every pair of every team at every time, for every solution.", "anchors": ["omgtools/environment/environment.py:Environment.define_intervehicle_collision_constraints", "omgtools/vehicles/vehicle.py:Vehicle.define_collision_constraints"]}
{"id": "C173", "title": "Teams in space stay apart", "statement": "The same for vehicles in space.", "quantifier": "all numbers of vehicles, segments and checkpoints, all labels, radii, safety distances, headings and configurations, all splines that satisfy the constraints, all times between start and end", "why_tests_cant": "A test solves for a few vehicles and checks samples; the statement is about every pair of every team at every time, for every solution.", "anchors": ["omgtools/environment/environment.py:Environment.define_intervehicle_collision_constraints", "omgtools/vehicles/vehicle.py:Vehicle.define_collision_constraints"]}
{"id": "C174", "title": "Which teams are refused", "statement": "Building the constraints between vehicles raises exactly when a vehicle does not have the dimension of the environment or has two or more shapes.", "quantifier": "all numbers of vehicles, segments and checkpoints, all labels, radii, safety distances, headings and configurations, all splines that satisfy the constraints, all times between start and end", "why_tests_cant": "A test tries single teams; the statement is an equivalence over all of them.", "anchors": ["omgtools/environment/environment.py:Environment.define_intervehicle_collision_constraints", "omgtools/environment/environment.py:Environment.define_collision_constraints", "omgtools/vehicles/vehicle.py:Vehicle.define_collision_constraints"]}
{"id": "C175", "title": "Names of the hyperplanes", "statement": "For labels without an underscore, two variables of hyperplanes between vehicles have the same name only if kind, segment, vehicles and shapes agree, and never that of a variable of a hyperplane between a vehicle and an obstacle. The names of the slacks are ambiguous (refuted).", "quantifier": "all numbers of vehicles, segments and checkpoints, all labels, radii, safety distances, headings and configurations, all splines that satisfy the constraints, all times between start and end", "why_tests_cant": "Name clashes need particular numbers of shapes and vehicles; tests use few.", "anchors": ["omgtools/environment/environment.py:Environment.define_intervehicle_collision_constraints", "omgtools/environment/environment.py:Environment.define_collision_constraints", "omgtools/vehicles/vehicle.py:Vehicle.define_collision_constraints"]}
{"id": "C176", "title": "Central formations are kept", "statement": "If the constraints of a central formation hold (fully connected, or in a circle of at least three vehicles), the difference of the positions of any two vehicles is that of their configurations at every time. Two vehicles in a circle are not connected at all (refuted).", "quantifier": "all numbers of vehicles, segments and checkpoints, all labels, radii, safety distances, headings and configurations, all splines that satisfy the constraints, all times between start and end", "why_tests_cant": "A test solves for a few vehicles and checks samples; the statement is about every pair of every team at every time, for every solution.", "anchors": ["omgtools/problems/formation_central.py:FormationPoint2pointCentral.construct", "omgtools/vehicles/fleet.py:Fleet.set_neighbors"]}
{"id": "C177", "title": "Soft central formations", "statement": "With soft formation constraints the slack is never negative and at most the absolute value of max_formation_deviation; any two vehicles deviate from their configuration by at most the slack if fully connected and by at most N - 1 times the slack in a circle of N.", "quantifier": "all numbers of vehicles, segments and checkpoints, all labels, radii, safety distances, headings and configurations, all splines that satisfy the constraints, all times between start and end", "why_tests_cant": "A test solves for a few vehicles and checks samples; the statement is about every pair of every team at every time, for every solution.", "anchors": ["omgtools/problems/formation_central.py:FormationPoint2pointCentral.construct"]}
{"id": "C178", "title": "Formations with room for everybody", "statement": "If discs keep a central formation exactly and also keep apart, the configured distance of any two is at least the sum of their radii; so a tighter configuration has no solution.", "quantifier": "all numbers of vehicles, segments and checkpoints, all labels, radii, safety distances, headings and configurations, all splines that satisfy the constraints, all times between start and end", "why_tests_cant": "A test solves for a few vehicles and checks samples; the statement is about every pair of every team at every time, for every solution.", "anchors": ["omgtools/problems/formation_central.py:FormationPoint2pointCentral.construct", "omgtools/environment/environment.py:Environment.define_intervehicle_collision_constraints"]}
{"id": "C179", "title": "Rational splines are weighted averages", "statement": "For positive weights the basis functions of a Nurbs lie between 0 and 1 and add up to one, the value is the numerator over the denominator, and it lies between the smallest and the largest coefficient.", "quantifier": "all knot vectors clamped on an interval, all coefficients and weights meeting the stated conditions, all points of the interval; the transformations solved exactly", "why_tests_cant": "no test evaluates rational or tensor product splines at all; values between the samples and other knot vectors are out of reach of tests", "anchors": ["omgtools/basics/spline.py:NurbsBasis.eval_basis", "omgtools/basics/spline.py:Nurbs.__init__"]}
{"id": "C180", "title": "Quotients, products and sums of rational splines", "statement": "The quotient of two splines, the product of a Nurbs with a spline or a number and the sum of two Nurbs have the values they should have wherever the denominators are not zero; with rounding the numerator and denominator of a quotient are off by at most tolerance times size. A quotient whose denominator is positive everywhere but has a zero coefficient is undefined (refuted by witness).", "quantifier": "all knot vectors clamped on an interval, all coefficients and weights meeting the stated conditions, all points of the interval; the transformations solved exactly", "why_tests_cant": "no test evaluates rational or tensor product splines at all; values between the samples and other knot vectors are out of reach of tests", "anchors": ["omgtools/basics/spline.py:BSpline.__div__", "omgtools/basics/spline.py:Nurbs.__mul__", "omgtools/basics/spline.py:Nurbs.__add__"]}
{"id": "C181", "title": "Derivatives of rational splines", "statement": "On a basis without inner knots Nurbs.derivative of any order is the derivative at all inner points; with inner knots it is not, even away from the knots and with all weights one (refuted by witness).", "quantifier": "all knot vectors clamped on an interval, all coefficients and weights meeting the stated conditions, all points of the interval; the transformations solved exactly", "why_tests_cant": "no test evaluates rational or tensor product splines at all; values between the samples and other knot vectors are out of reach of tests", "anchors": ["omgtools/basics/spline.py:Nurbs.derivative"]}
{"id": "C182", "title": "Knot insertion into rational splines", "statement": "Nurbs.insert_knots keeps the values when all weights are equal; with different weights it changes them (refuted by witness).", "quantifier": "all knot vectors clamped on an interval, all coefficients and weights meeting the stated conditions, all points of the interval; the transformations solved exactly", "why_tests_cant": "no test evaluates rational or tensor product splines at all; values between the samples and other knot vectors are out of reach of tests", "anchors": ["omgtools/basics/spline.py:Nurbs.insert_knots"]}
{"id": "C183", "title": "Tensor product splines as functions", "statement": "A TensorBSpline in any number of variables has the value given by the products of its basis functions; sums, differences, sums and products with a number, and products of splines in two variables, are those of the values; there is no product in any other number of variables. A number minus a spline has the wrong sign (refuted by witness).", "quantifier": "all knot vectors clamped on an interval, all coefficients and weights meeting the stated conditions, all points of the interval; the transformations solved exactly", "why_tests_cant": "no test evaluates rational or tensor product splines at all; values between the samples and other knot vectors are out of reach of tests", "anchors": ["omgtools/basics/spline.py:TensorBSpline.__call__", "omgtools/basics/spline.py:TensorBSpline.__add__", "omgtools/basics/spline.py:TensorBSpline.__mul__"]}
{"id": "C184", "title": "Integrals of tensor product splines", "statement": "TensorBSpline.integral is the integral over one variable after the other in one and two variables, and in more when all variables but the last have the same basis; for different bases it is wrong or raises (refuted by witnesses).", "quantifier": "all knot vectors clamped on an interval, all coefficients and weights meeting the stated conditions, all points of the interval; the transformations solved exactly", "why_tests_cant": "no test evaluates rational or tensor product splines at all; values between the samples and other knot vectors are out of reach of tests", "anchors": ["omgtools/basics/spline.py:TensorBSpline.integral"]}
{"id": "C185", "title": "Smooth machining over all segments", "statement": "When every segment is solved, the motion that Deployer.update_segment carries out, segment after segment, starts at rest at the given position; its recorded velocity is the derivative of its position and its acceleration that of its velocity, the latter continuous, at every moment up to the sum of the logged motion times; the end values and the last column are those of the motion at its end; the log holds the motion times and the clock of a pass is the sum of the earlier ones. The jerk may jump (refuted by witness).", "quantifier": "all GCode programmes, sample times and sequences of results of the solver meeting the stated conditions, all moments of the run; the splines evaluated exactly", "why_tests_cant": "no test deploys the GCode scheduler; runs over many segments with failing solutions, and the moments between the samples, are out of reach of tests", "anchors": ["omgtools/execution/deployer.py:Deployer.update_segment", "omgtools/problems/gcodeproblem.py:GCodeProblem.store", "omgtools/vehicles/tool.py:Tool.get_initial_constraints"]}
{"id": "C186", "title": "Recorded machining trajectory", "statement": "When every segment is solved, every column recorded by Deployer.update_segment and every row that is saved holds position, velocity and acceleration of the motion at its time: zero, the samples of each segment and the end of each segment. A segment of a whole number of samples records its end twice (refuted by witness); a result shorter than a sample is not stored and the end values are computed from the segment before.", "quantifier": "all GCode programmes, sample times and sequences of results of the solver meeting the stated conditions, all moments of the run; the splines evaluated exactly", "why_tests_cant": "no test deploys the GCode scheduler; runs over many segments with failing solutions, and the moments between the samples, are out of reach of tests", "anchors": ["omgtools/execution/deployer.py:Deployer.update_segment", "omgtools/problems/gcodeproblem.py:GCodeProblem.store", "omgtools/vehicles/tool.py:Tool.splines2signals"]}
{"id": "C187", "title": "Rejected segments", "statement": "A segment whose solution fails is taken back: positions, accelerations and the log are as before the pass, the retry starts from the same position and acceleration with the same blocks, and over all failures the positions and accelerations of the segments that are carried out fit together. The last input is moved by a hundredth along the line through the last two. The retry starts with the end velocity of the failed segment and too late a time, and the line divides by zero for inputs above each other (refuted by witnesses).", "quantifier": "all GCode programmes, sample times and sequences of results of the solver meeting the stated conditions, all moments of the run; the splines evaluated exactly", "why_tests_cant": "no test deploys the GCode scheduler; runs over many segments with failing solutions, and the moments between the samples, are out of reach of tests", "anchors": ["omgtools/execution/deployer.py:Deployer.check_results", "omgtools/execution/deployer.py:Deployer.update_segment"]}
{"id": "C188", "title": "Limit on the retries", "statement": "A failure in the first pass raises; up to 20 failures in a row are counted and the 21st raises, whatever came before; the count never passes 20 and starts again with a segment that is solved at once. It does not start again with a successful retry (refuted by witness: one failure after 20 failures and a success raises).", "quantifier": "all GCode programmes, sample times and sequences of results of the solver meeting the stated conditions, all moments of the run; the splines evaluated exactly", "why_tests_cant": "no test deploys the GCode scheduler; runs over many segments with failing solutions, and the moments between the samples, are out of reach of tests", "anchors": ["omgtools/execution/deployer.py:Deployer.check_results"]}
{"id": "C189", "title": "Progress and end of machining", "statement": "A run with one segment at a time that ends does so within a hundredth of the goal, with velocities below a hundredth, in the last block; every segment that is carried out moves on by one block at most. With two segments at a time a run may stop in the first block, and with one it may pass over the first block (refuted by witnesses).", "quantifier": "all GCode programmes, sample times and sequences of results of the solver meeting the stated conditions, all moments of the run; the splines evaluated exactly", "why_tests_cant": "no test deploys the GCode scheduler; runs over many segments with failing solutions, and the moments between the samples, are out of reach of tests", "anchors": ["omgtools/problems/gcodeschedulerproblem.py:GCodeSchedulerProblem.solve", "omgtools/execution/deployer.py:Deployer.update_segment"]}
{"id": "C190", "title": "Shared vectors and dictionaries hold the same values", "statement": "A vector of shared variables turned into a dictionary and back is the same vector, and a dictionary turned into a vector and back is the same dictionary, for every set of differently named variables; the vector holds the values in the order of the structure. The values taken from the local solution are the coefficients of the splines, one spline after the other. Without shared variables both raise.", "quantifier": "all numbers of vehicles, shared variables, labels, indices, coefficients, knot vectors, samples and configurations meeting the stated conditions", "why_tests_cant": "the tests run one fleet with one kind of vehicle and look at the end of the run; the vectors exchanged, their transformation and the error for other fleets are never looked at", "anchors": ["omgtools/problems/dualmethod.py:DualUpdater._struct2dict", "omgtools/problems/dualmethod.py:DualUpdater._dict2struct", "omgtools/problems/dualmethod.py:DualUpdater._get_x_variables", "omgtools/problems/dualmethod.py:_create_struct_from_dict"]}
{"id": "C191", "title": "Shared splines are transformed with the local ones", "statement": "When the shared vectors are transformed, every spline variable is transformed and everything else is kept. For consecutive indices exactly the splines whose coefficients are all shared are transformed, each by the transformation of its basis. Hence after a shift over a knot the shared splines equal the old ones one knot later, and after a move of the first knots they are the same functions on the rest of the interval, and moving back gives the same coefficients.", "quantifier": "all numbers of vehicles, shared variables, labels, indices, coefficients, knot vectors, samples and configurations meeting the stated conditions", "why_tests_cant": "the tests run one fleet with one kind of vehicle and look at the end of the run; the vectors exchanged, their transformation and the error for other fleets are never looked at", "anchors": ["omgtools/problems/dualmethod.py:DualUpdater._transform_spline", "omgtools/basics/spline_extra.py:shift_over_knot", "omgtools/basics/spline_extra.py:shift_knot1_fwd"]}
{"id": "C192", "title": "The formation error measures the deviation from the formation", "statement": "The formation error is never negative. It is zero exactly if at every sample all vehicles see the centre of the fleet at the mean of the positions; for vehicles whose view of the centre is their position minus their place this holds exactly if they are in formation and the configuration is centred. It is at most the largest deviation relative to the distance of the vehicle in the configuration.", "quantifier": "all numbers of vehicles, shared variables, labels, indices, coefficients, knot vectors, samples and configurations meeting the stated conditions", "why_tests_cant": "the tests run one fleet with one kind of vehicle and look at the end of the run; the vectors exchanged, their transformation and the error for other fleets are never looked at", "anchors": ["omgtools/problems/formation.py:FormationPoint2point.get_interaction_error"]}
{"id": "C193", "title": "Problems are built once per class and number of neighbours", "statement": "Every updater of a distributed problem is in exactly one group; the updaters of a group have the same class of vehicle and the same number of neighbours, different groups differ in one of them, and every updater uses the problems built by one like itself.", "quantifier": "all numbers of vehicles, shared variables, labels, indices, coefficients, knot vectors, samples and configurations meeting the stated conditions", "why_tests_cant": "the tests run one fleet with one kind of vehicle and look at the end of the run; the vectors exchanged, their transformation and the error for other fleets are never looked at", "anchors": ["omgtools/problems/distributedproblem.py:DistributedProblem.separate_per_build", "omgtools/problems/distributedproblem.py:DistributedProblem.init", "omgtools/vehicles/fleet.py:Fleet.sort_vehicles"]}
{"id": "C194", "title": "What the vehicles of a distributed problem predict from", "statement": "Each vehicle of a distributed problem predicts from the state given for its problem, enforced only at the start; the column taken by an ideal prediction is that of the predict time.", "quantifier": "all numbers of vehicles, shared variables, labels, indices, coefficients, knot vectors, samples and configurations meeting the stated conditions", "why_tests_cant": "the tests run one fleet with one kind of vehicle and look at the end of the run; the vectors exchanged, their transformation and the error for other fleets are never looked at", "anchors": ["omgtools/problems/distributedproblem.py:DistributedProblem.predict", "omgtools/problems/problem.py:Problem.predict"]}
{"id": "C195", "title": "Where the initial guesses of a GCode problem come from", "statement": "Before the first solution every segment gets a guess of its own. Afterwards segment k starts from the solution of segment k+1 and the last one from a new guess; the last segment of a programme starts from the solution of the second segment; with one segment at a time there is always a new guess. There is one guess per segment, unless the last solution has one segment while several may be combined (refuted by a witness).", "quantifier": "all numbers of segments, solutions, segments of a ring, directions, limits, splines clamped on [0,1] and moments meeting the stated conditions", "why_tests_cant": "no test runs the GCode scheduler or a problem with a free end; what holds between the coefficients, for other segments and for other limits is never looked at", "anchors": ["omgtools/problems/gcodeschedulerproblem.py:GCodeSchedulerProblem.get_init_guess"]}
{"id": "C196", "title": "The guess for a ring stays in the ring", "statement": "A guess that meets the constraints lies in the ring at all moments, from the start to the end of the segment, at rest and without acceleration at both; the solver starts from points spread evenly over the arc in the direction of the segment, of which the first is the start. For a full circle all these points coincide, and the height of the segment is lost (refuted by witnesses).", "quantifier": "all numbers of segments, solutions, segments of a ring, directions, limits, splines clamped on [0,1] and moments meeting the stated conditions", "why_tests_cant": "no test runs the GCode scheduler or a problem with a free end; what holds between the coefficients, for other segments and for other limits is never looked at", "anchors": ["omgtools/problems/gcodeschedulerproblem.py:GCodeSchedulerProblem.get_init_guess_ring"]}
{"id": "C197", "title": "Motion time and check of a guess", "statement": "The motion time of a guess keeps velocity, acceleration and jerk in x and y within the limits of x at the samples, and is at most five percent more than any such time; the check accepts it when the limits of y are not lower. Speeds in z and negative values are not looked at, and lower limits in y make the check raise (refuted by witnesses).", "quantifier": "all numbers of segments, solutions, segments of a ring, directions, limits, splines clamped on [0,1] and moments meeting the stated conditions", "why_tests_cant": "no test runs the GCode scheduler or a problem with a free end; what holds between the coefficients, for other segments and for other limits is never looked at", "anchors": ["omgtools/problems/gcodeschedulerproblem.py:GCodeSchedulerProblem.get_init_guess_motion_time", "omgtools/problems/gcodeschedulerproblem.py:GCodeSchedulerProblem.get_init_guess_new_segment"]}
{"id": "C198", "title": "Free ends", "statement": "In a problem with a free end the slack splines bound the distance of every component to its condition, which is a variable of its own for the free components and the goal for the others; the last component ends at its condition. By default the first two components are free whatever their number. The vehicle need not end at rest, nor the other components at their conditions (refuted by a witness).", "quantifier": "all numbers of segments, solutions, segments of a ring, directions, limits, splines clamped on [0,1] and moments meeting the stated conditions", "why_tests_cant": "no test runs the GCode scheduler or a problem with a free end; what holds between the coefficients, for other segments and for other limits is never looked at", "anchors": ["omgtools/problems/point2point.py:FreeEndPoint2point.define_terminal_constraints", "omgtools/problems/point2point.py:FreeEndPoint2point.construct"]}
{"id": "C199", "title": "Stepping the simulator is running it", "statement": "A step returns the last recorded state, the clock, the horizon and whether the vehicle stopped; it records one update. The clock is at the last recorded time exactly if the vehicle stopped or the step has the length of an update (or length 0, which is taken as that). Stepping by the update time until the vehicle stops gives the same states, signals and number of updates as run, with the clock at the last recorded time.", "quantifier": "all settings, plans, states, numbers of samples and lists of obstacles and rooms meeting the stated conditions; the splines evaluated exactly and all solutions found", "why_tests_cant": "no test calls step, run_once with a hard stop or fill_room; other lengths of a step, repeated calls and other plans are out of reach of tests", "anchors": ["omgtools/execution/simulator.py:Simulator.step", "omgtools/execution/simulator.py:Simulator.update", "omgtools/execution/simulator.py:Simulator.update_timing"]}
{"id": "C200", "title": "Steps of another length", "statement": "After a first step of any whole number of samples the next one succeeds. It records one update from the clock onwards, so the recorded times are evenly spaced exactly if a step is as long as an update, and go back if it is shorter. In particular the default argument of step does not fit the default update times (refuted by a witness).", "quantifier": "all settings, plans, states, numbers of samples and lists of obstacles and rooms meeting the stated conditions; the splines evaluated exactly and all solutions found", "why_tests_cant": "no test calls step, run_once with a hard stop or fill_room; other lengths of a step, repeated calls and other plans are out of reach of tests", "anchors": ["omgtools/execution/simulator.py:Simulator.step", "omgtools/execution/deployer.py:Deployer.update", "omgtools/vehicles/vehicle.py:Vehicle.predict"]}
{"id": "C201", "title": "run_once executes one plan", "statement": "run_once appends the samples of one plan, from its start at the present time to the end of the horizon: inputs and their derivatives as planned, states as planned with ideal updates and otherwise the mean velocities of the samples added up from the present state. The clock advances by the horizon, to the last recorded time; with ideal updates the last state is the end of the plan.", "quantifier": "all settings, plans, states, numbers of samples and lists of obstacles and rooms meeting the stated conditions; the splines evaluated exactly and all solutions found", "why_tests_cant": "no test calls step, run_once with a hard stop or fill_room; other lengths of a step, repeated calls and other plans are out of reach of tests", "anchors": ["omgtools/execution/simulator.py:Simulator.run_once", "omgtools/execution/deployer.py:Deployer.reset", "omgtools/problems/point2point.py:FixedTPoint2point.simulate"]}
{"id": "C202", "title": "Hard stops", "statement": "A hard stop executes the plan up to the given time, at most to the end of the horizon; the last recorded state is the planned one plus the perturbation, with zero input, and the clock is at its time. The next run starts from that state at rest. A hard stop at time 0 records nothing while the clock advances by an update, so that clock and recorded times do not agree after it (refuted by a witness).", "quantifier": "all settings, plans, states, numbers of samples and lists of obstacles and rooms meeting the stated conditions; the splines evaluated exactly and all solutions found", "why_tests_cant": "no test calls step, run_once with a hard stop or fill_room; other lengths of a step, repeated calls and other plans are out of reach of tests", "anchors": ["omgtools/execution/simulator.py:Simulator.hard_stop", "omgtools/execution/simulator.py:Simulator.run_once", "omgtools/vehicles/vehicle.py:Vehicle.overrule_state", "omgtools/vehicles/vehicle.py:Vehicle.overrule_input"]}
{"id": "C203", "title": "The obstacles of an environment", "statement": "Nested lists of obstacles are added in order and counted; a solid in a plane raises. The rooms of an environment have one dimension, a position and an orientation. Filling a room makes the given obstacles those that are avoided in it, adds the new ones once and keeps the rest; every avoided obstacle belongs to the environment, after adding obstacles and filling rooms. Filling a room does not count obstacles and does not remove those of an earlier filling, and the copy of an environment with a filled room avoids obstacles of the original (refuted by witnesses).", "quantifier": "all settings, plans, states, numbers of samples and lists of obstacles and rooms meeting the stated conditions; the splines evaluated exactly and all solutions found", "why_tests_cant": "no test calls step, run_once with a hard stop or fill_room; other lengths of a step, repeated calls and other plans are out of reach of tests", "anchors": ["omgtools/environment/environment.py:Environment.__init__", "omgtools/environment/environment.py:Environment.add_obstacle", "omgtools/environment/environment.py:Environment.fill_room", "omgtools/environment/environment.py:Environment.copy"]}
{"id": "C204", "title": "Stored plans belong to the recorded samples", "statement": "After any sequence of simulations of whole numbers of samples, the signals of a vehicle are the first column of the first plan followed by the executed samples, for time and state alike, and entry i of the storage is the plan from which column i+1 comes. For other times the numbers of columns and of stored plans differ by one if the time is less than half a millionth of a sample short of a whole number, and agree if it is more; with the doubles 0.3 and 0.1 there are more times than states and stored plans (refuted by a witness). A vehicle that is not simulated keeps its signals.", "quantifier": "all sequences of simulations, plans, sample times and simulated times that are not negative, all fleets and lists of values meeting the stated conditions", "why_tests_cant": "no test looks at the storages or gives a fleet too few or too many values; other sample times and longer runs are out of reach of tests", "anchors": ["omgtools/vehicles/vehicle.py:Vehicle.simulate", "omgtools/vehicles/vehicle.py:Vehicle._add_to_memory", "omgtools/vehicles/vehicle.py:Vehicle.integrate_ode"]}
{"id": "C205", "title": "Fleets pass on values in order", "statement": "Vehicle i of a fleet gets state, input or condition i. Vehicles without a value keep what they have, which is not noticed (refuted by a witness), and further values are not used; without inputs every vehicle takes its own default.", "quantifier": "all sequences of simulations, plans, sample times and simulated times that are not negative, all fleets and lists of values meeting the stated conditions", "why_tests_cant": "no test looks at the storages or gives a fleet too few or too many values; other sample times and longer runs are out of reach of tests", "anchors": ["omgtools/vehicles/fleet.py:Fleet.set_initial_conditions", "omgtools/vehicles/fleet.py:Fleet.set_terminal_conditions", "omgtools/vehicles/fleet.py:Fleet.overrule_state", "omgtools/vehicles/fleet.py:Fleet.overrule_input"]}
{"id": "C206", "title": "The vehicles of a problem", "statement": "The vehicles of a problem are those of its fleet, in order, and all vehicles that were given, as a vehicle, a list of vehicles or a fleet. Of a list of several fleets only the first one is used (refuted by a witness).", "quantifier": "all sequences of simulations, plans, sample times and simulated times that are not negative, all fleets and lists of values meeting the stated conditions", "why_tests_cant": "no test looks at the storages or gives a fleet too few or too many values; other sample times and longer runs are out of reach of tests", "anchors": ["omgtools/vehicles/fleet.py:get_fleet_vehicles", "omgtools/vehicles/fleet.py:Fleet.__init__", "omgtools/problems/problem.py:Problem.__init__"]}
{"id": "C207", "title": "Paths of a figure are read as their points", "statement": "A path written as one M line with a point and c and C lines of three points each, then letters without numbers, with a point in every number or in none, a minus sign without a separator before it and any number of blanks around the numbers of a line, is read as the absolute points it stands for. A path that mixes both kinds of numbers is not (refuted by a witness: sums are cut to integers), and neither is a c line with several curves (refuted by a witness): its numbers after the first six are read as they are written.", "quantifier": "all written numbers, lines, paths and figures meeting the stated conditions", "why_tests_cant": "no test reads a figure; the number of curves, the way numbers are written and the nesting of groups are unbounded", "anchors": ["omgtools/gui/svg_reader.py:SVGReader.convert_path_to_points"]}
{"id": "C208", "title": "What ends the reading of paths", "statement": "A comma or a space before a minus sign ends in a SyntaxError. Entry i of what is written holds the points of path i; the first path that cannot be read ends the conversion, and the paths after it are not written.", "quantifier": "all written numbers, lines, paths and figures meeting the stated conditions", "why_tests_cant": "no test reads a figure; the number of curves, the way numbers are written and the nesting of groups are unbounded", "anchors": ["omgtools/gui/svg_reader.py:SVGReader.convert_path_to_points"]}
{"id": "C209", "title": "Which paths are found", "statement": "The paths that are read are all paths of one place: the figure, its first group, or the first group of that one, whichever holds a path first. Paths of other groups are not found (refuted by a witness).", "quantifier": "all written numbers, lines, paths and figures meeting the stated conditions", "why_tests_cant": "no test reads a figure; the number of curves, the way numbers are written and the nesting of groups are unbounded", "anchors": ["omgtools/gui/svg_reader.py:SVGReader.convert_path_to_points"]}
{"id": "C210", "title": "Labels of exported files", "statement": "For names and namespaces without underscores rmv_label undoes add_label, for single names and lists. The label goes between the name and the extension. Of a path with further dots everything up to the last dot but one is lost, so a directory such as ./export gives another place (refuted by a witness); with an underscore in the namespace or the name rmv_label gives another name (refuted by witnesses).", "quantifier": "all names, namespaces, templates and dictionaries meeting the stated conditions", "why_tests_cant": "no test exports a problem with other names, directories or namespaces; texts and dictionaries are unbounded", "anchors": ["omgtools/export/export.py:Export.add_label", "omgtools/export/export.py:Export.rmv_label"]}
{"id": "C211", "title": "Filled templates", "statement": "Filling a template puts the value of a key at all its places, keeps places without a value and all other text, and does not depend on the order of the dictionary, provided values and text do not hold the sign @ and a character that is in no key follows each place before the next one. Without the latter the order can matter (refuted by a witness).", "quantifier": "all names, namespaces, templates and dictionaries meeting the stated conditions", "why_tests_cant": "no test exports a problem with other names, directories or namespaces; texts and dictionaries are unbounded", "anchors": ["omgtools/export/export.py:Export.fill_template"]}
{"id": "C212", "title": "Include guards", "statement": "The label of a header is the word behind its first #ifndef; every occurrence gets the namespace in capital letters and nothing else changes. A header without #ifndef that ends with a line end gets the namespace before and behind every character. With a comment behind the label the last word of the comment is changed instead (refuted by a witness).", "quantifier": "all headers, labels and namespaces meeting the stated conditions", "why_tests_cant": "no test exports other headers or namespaces; texts are unbounded", "anchors": ["omgtools/export/export.py:Export.set_includeguards"]}
