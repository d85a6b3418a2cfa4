# Formal model of omg-tools in Rocq/Coq 8.16.1

Source under study: `/repo` (meco-group/omg-tools; Python, and the C++ files of
`omgtools/export`).  Nothing of it is executed; the model is written from the
source text.

## Layout

* `properties.jsonl` - the properties, in terms of the API.
* `rocq/theories/` - the model (`*_Model.v`: definitions only, each citing file
  and lines of `/repo`), independent specifications (`*_Spec.v`), proofs
  (`*_Proofs*.v` and others), and `Properties_*.v` with the final theorems, one
  concrete Example per theorem and `Print Assumptions`.
* `MANIFEST.json` - property -> theorem names and status.
* `seeded/LOG.jsonl` - mutation tests of the theorems: definitions of the model
  are changed in a scratch copy and the theorems that then fail are recorded.

## Modelling conventions

* Discrete code (grids, A*, labels, dictionaries, G-code, schedulers, fleets,
  index tables) is modelled over `Z`, `nat`, `list`, `string`; physical
  quantities in it are exact rationals `Q` when a concrete run must be computed
  by `vm_compute`.
* Continuous code (splines, trajectories, geometry, vehicle kinematics) is
  modelled over the standard library reals `R`.
* Floating point is idealised: `+ - * /` and comparisons are exact.  Where the
  behaviour of the code depends on rounding (`int(...)`, `round(...,6)`, entries
  below 1e-10 set to zero), the rounding itself is modelled on exact numbers.
* Python exceptions are values (`None`, `Err`-like constructors); loops are
  structural recursions, or fuelled loops with an explicit out-of-fuel result
  that the theorems exclude.
* CasADi, IPOPT, scipy ODE integration, matplotlib, file and widget input and
  output are not modelled.  Linear solvers are exact elimination.  Statements
  about solutions are implications: if the constraints that the code emits
  hold, then ...
* A property that is false in some corner is proved under the condition under
  which it holds, and the corner is a theorem `..._refuted : exists ...`.

## Proof ideas

| area | idea |
|---|---|
| splines (Spline, Splop, Shift, Concat) | Cox-de Boor recursion as in `eval_basis`; blossoms (`Blossom.v`) for derivative, knot insertion, shifting; exact elimination for basis transformations |
| optilayer, timing, dual methods (Opti, Timing, Dist, Admm) | state machines with invariants, KKT argument for the consensus step |
| global planner (Grid, AStar) | loop invariant on open and closed lists, counting for termination |
| geometry, collision constraints (Geom, Lift) | convexity, Cauchy-Schwarz; coefficients bound values, so constraints on coefficients hold over the whole motion |
| vehicles (Vehicle, Wheel, Quad) | chain rule over `derivable_pt_lim`-like derivatives on intervals, half-angle identities |
| obstacles (Obst, Bounce) | polynomial identities, case analysis on walls |
| G-code, svg, gui (Gcode, Gmove, Bang, Svg, Gui) | list induction, real trigonometry |
| frames and scheduler (Frame, Sched) | invariants of reachable states, exact rational witnesses |
| export (Export, Cpp) | interpreter for the generated code, loop invariants over verdict histories |

## Trusted base

* The Coq 8.16.1 kernel, including `vm_compute`.
* The Coq standard library and the axioms listed per theorem at the end of this
  file (those of the classical reals, functional extensionality and excluded
  middle; many theorems need none).
* The correspondence between the source text and the Gallina definitions, which
  is documented by line references next to every definition and by the list of
  simplifications at the head of every model file.
* Nothing here says that IPOPT finds a solution or that floats are exact.


## Areas

One section per model file; the text is the header of the file.  Every definition in it carries its own line reference.

### AStar

Model of omgtools/problems/globalplanner.py, class AStarPlanner
(lines 48-249) and class Node (261-282).

Node objects live in a heap (a list; the address is the index) because the
code mutates them and compares them by identity.  Costs are exact rationals.
The diagonal cost (88-89) is kept as a parameter of the planner: the code
computes cell_width/cos(arctan(cell_height/cell_width)), a float.

Files: `AStar_Model.v`, `AStar_Proofs.v`, `AStar_Proofs2.v`, `AStar_Spec.v`.  25 definitions.
Properties using it: C15, C16, C17, C18, C19, C20, C21.

### Admm

Model of the numerical part of the dual methods: consensus update,
multiplier update, communication, residuals and acceleration.

Code: omgtools/problems/admm.py 117-168 (z-update), 248-268 (multipliers),
270-307 and 493-508 (residuals), 360-370 (start values), 383-475 (one
updater's steps), 477-491 (init_step), 510-554 (acceleration), 584-611
(one dual update); omgtools/problems/dualdecomposition.py 149-167, 209-258,
279-297.

Vectors are lists of exact reals, the structured vectors [q_i], [q_ij],
[q_ji] are one vector per updater respectively per pair of updaters.
Simplifications: every copy has the layout of the original (see property
C35 for when this is so); the transformation to the remaining part of the
horizon (admm.py 143-145, 161-163, 294-296) is not modelled, as for an
update at a knot, where it is the identity.  The numerical solvers (the
x-update, [solve] of the KKT system) are inputs of the model.

Files: `Admm_Model.v`, `Admm_Proofs.v`, `Admm_Proofs2.v`, `Admm_Proofs3.v`, `Admm_Spec.v`.  50 definitions.
Properties using it: C36, C37, C38, C39, C71, C72.

### Angle

numpy.arctan2 and numpy.linspace over exact reals.

Files: `Angle_Model.v`, `Angle_Proofs.v`.  2 definitions.
Properties using it: C30, C43, C44, C50, C51, C52, C53, C54, C74, C75, C76, C77, C78, C79, C162, C163, C164, C165, C166, C167, C168, C169, C170, C171, C195, C196, C197, C198.

### Bang

Model of the bang-bang jerk guess for one coordinate of a G-code segment
(problems/gcodeschedulerproblem.py).

Files: `Bang_Model.v`, `Bang_Proofs.v`.  3 definitions.
Properties using it: C46.

### Bounce

Bouncing obstacles and the simulation of the whole environment.
Source: omgtools/environment/environment.py 190-331.

Files: `Bounce_Model.v`, `Bounce_Proofs.v`.  10 definitions.
Properties using it: C49.

### Concat

Model of the concatenation of spline segments:
omgtools/basics/spline_extra.py concat_splines and its use in
omgtools/vehicles/vehicle.py store.

Simplifications: exact reals; la.solve is exact elimination (gsolve of
Splop_Model, None where la.solve raises); the arrays knots[l], coeffs[l]
and the spline prev_segment[l] always hold the same data (prev_segment[l]
is rebuilt from the two arrays at spline_extra.py 394-396, and for the
first segment it is scaled with shift 0), so one spline stands for all
three; a raised exception is None.

Files: `Concat_Model.v`, `Concat_Proofs.v`, `Concat_Proofs2.v`, `Concat_Proofs3.v`, `Concat_Proofs4.v`, `Concat_Proofs5.v`, `Concat_Proofs6.v`, `Concat_Proofs7.v`, `Concat_Proofs8.v`, `Concat_Spec.v`.  17 definitions.
Properties using it: C85.

### Cpp

Model of the hand-written C++ part of the exported code:
export/vehicles/Vehicle.cpp, Holonomic.cpp, the time keeping of
export/point2point/Point2Point.cpp and admm/ADMMPoint2Point.cpp.

Simplifications for the whole file: doubles are exact reals; subscripts
outside a vector are the result None (write, nth_error); the solver is
represented by its verdict (succeeded or not); (int) of a non-negative
double is its integer part.

Files: `Cpp_Model.v`, `Cpp_Proofs.v`, `Cpp_Proofs2.v`, `Cpp_Proofs3.v`, `Cpp_Spec.v`.  29 definitions.
Properties using it: C88, C89, C90, C91.

### Dist

Model of the structure of distributed problems and of the iteration
bookkeeping of the dual methods.

Code: omgtools/problems/distributedproblem.py 105-169, 181-182 and 221-225,
omgtools/problems/dualmethod.py 190-243, omgtools/problems/admm.py 586-628,
omgtools/problems/dualdecomposition.py 279-310.

A child (vehicle, problem, environment, obstacle) is a pair of the number
of the updater it belongs to ([child._index], dualmethod.py 54-55) and a
number that tells the children of one updater apart.

Files: `Dist_Model.v`, `Dist_Proofs.v`, `Dist_Spec.v`.  36 definitions.
Properties using it: C35, C40.

### Draw

Model of the shapes of omgtools/basics/shape.py with their outlines,
checkpoints and limits, of the draw methods of vehicles, obstacles and the
environment, and of the collision constraints of a vehicle with one or more
shapes and of a trailer with the vehicle that pulls it, at one instant.
Reals are exact.  A 2 x n (3 x n) array is the list of its columns.

Files: `Draw_Examples.v`, `Draw_Model.v`, `Draw_Proofs.v`, `Draw_Proofs2.v`, `Draw_Proofs3.v`, `Draw_Proofs4.v`, `Draw_Proofs5.v`, `Draw_Proofs6.v`, `Draw_Spec.v`.  85 definitions.
Properties using it: C143, C144, C145, C146, C147, C148, C149, C150, C151.

### Export

Model of the C++ code written by omgtools/export/export.py and
export_admm.py: the text generators produce a small program, the programs
are run by an interpreter.

Simplifications for the whole file: C++ doubles are exact reals; a
std::vector is a list and every subscript outside it (undefined behaviour
in C++) is the result None; the two nested loops "for child ... for name"
over father.children are one list of declarations in that order; the
substituted external functions of CasADi are not modelled.

Files: `Export_Model.v`, `Export_Proofs.v`, `Export_Proofs2.v`, `Export_Proofs3.v`, `Export_Spec.v`.  62 definitions.
Properties using it: C55, C86, C87.

### Fleet

Model of the fleet and of the coupling constraints of formation problems.

Code: omgtools/vehicles/fleet.py 37-101, omgtools/vehicles/vehicle.py
234-240, omgtools/problems/formation.py 33-66, omgtools/problems/
rendezvous.py 36-83, omgtools/problems/formation_central.py 36-81.

Vehicles are numbered by their place in [Fleet.vehicles] (the code keys
its dictionaries by vehicle objects, which are distinct).  Numbers are
exact reals, a trajectory coordinate is a function of time.

Files: `Fleet_Model.v`, `Fleet_Proofs.v`, `Fleet_Spec.v`.  18 definitions.
Properties using it: C32, C33, C34.

### Frame

Model of omgtools/environment/frame.py: the frames that the scheduler cuts
out of a large room.

Lengths, times and speeds are exact rationals (Q) instead of floats.  Python
lists [x, y] are pairs.  Exceptions are values of the type [res]; [OutOfFuel]
is not a Python exception but a `while True` loop that did not end within the
given number of turns.  Printing and the measuring of computation times are
not modelled.  An orientation is given by its cosine and sine; orientation 0
is the pair (1, 0), so full turns are identified with 0.  A square root of
a^2 + b^2 in which a or b is zero is written |a| + |b|, and distances are
compared by their squares.

Files: `Frame_Model.v`, `Frame_Proofs.v`, `Frame_Proofs2.v`, `Frame_Proofs3.v`, `Frame_Proofs4.v`, `Frame_Proofs5.v`, `Frame_Proofs6.v`, `Frame_Spec.v`.  90 definitions.
Properties using it: C59, C95, C96, C97, C98, C99.

### Free

The closed loop of a simulation with free end time: FreeTPoint2point with
one vehicle of the holonomic kind.  The loop of Loop_Model with the motion
time as part of the solver's answer.
Sources: omgtools/problems/point2point.py, omgtools/execution/simulator.py,
omgtools/execution/deployer.py, omgtools/vehicles/vehicle.py,
omgtools/vehicles/holonomic.py.

Simplifications.  Those of Loop_Model.  The motion time is an exact
rational.  init_step (the guess for the next solve) has no effect but on
the solver and is left out (Multi_Model.free_init_step).  init_time is
None, its default.

Files: `Free_Examples.v`, `Free_Model.v`, `Free_Proofs.v`, `Free_Proofs2.v`, `Free_Proofs3.v`, `Free_Proofs4.v`, `Free_Proofs5.v`, `Free_Proofs6.v`, `Free_Proofs7.v`, `Free_Proofs8.v`, `Free_Spec.v`.  16 definitions.
Properties using it: C119, C120, C121, C122, C123, C124, C125, C126, C127.

### Gcode

Model of omgtools/gui/gcode_block.py, gui/gcode_reader.py and of the room
bookkeeping of problems/gcodeschedulerproblem.py.  Coordinates are exact
rationals; Python's float() and str() on numbers are arguments (num, str).

Files: `Gcode_Model.v`, `Gcode_Proofs.v`, `Gcode_Proofs2.v`, `Gcode_Spec.v`.  60 definitions.
Properties using it: C41, C42, C45, C73.

### Geom

Model of omgtools/basics/geometry.py and the parts of basics/shape.py it
relies on, over exact reals.  A point of the plane is a pair; a 2 x n vertex
array is the list of its columns.

Files: `Geom_Model.v`, `Geom_Proofs.v`, `Geom_Proofs2.v`, `Geom_Proofs3.v`, `Geom_Proofs4.v`, `Geom_Proofs5.v`, `Geom_Spec.v`.  65 definitions.
Properties using it: C22, C23, C24, C25, C63, C64, C65, C66, C67, C68, C69.

### Gmove

Model of the geometry of G-code segments over exact reals: arc sampling
(gui/gcode_block.py), rooms around lines and arcs, the segment switching test
and the motion guesses (problems/gcodeschedulerproblem.py).

Files: `Gmove_Model.v`, `Gmove_Proofs.v`, `Gmove_Proofs2.v`, `Gmove_Proofs3.v`, `Gmove_Spec.v`.  43 definitions.
Properties using it: C43, C44, C74, C75, C76.

### Grid

Model of omgtools/problems/globalplanner.py, class Grid (lines 284-522).

Grid indices are integers (Z).  Physical lengths are exact rationals (Q)
instead of floats.  Python lists [i, j] used as cells are pairs; they are
never mutated after being stored.  n_cells and the occupied list are plain
data.  Plotting (draw, 524-552) is not modelled.

Files: `Grid_Model.v`, `Grid_Proofs.v`, `Grid_Proofs2.v`, `Grid_Proofs3.v`.  43 definitions.
Properties using it: C15, C16, C17, C18, C19, C20, C21.

### Guard

Include guards of exported headers (omgtools/export/export.py).

Simplifications.  Strings are lists of characters, as in Label_Model.  A
function on the text of a header stands for reading and writing the file.

Files: `Guard_Model.v`, `Guard_Proofs.v`, `Guard_Spec.v`.  10 definitions.
Properties using it: C212.

### Guess

Initial guesses for the spline coefficients: how every vehicle computes
them, how they reach the variables of the problem, and when they are used.
Sources: omgtools/vehicles/vehicle.py, holonomic.py, holonomic1d.py,
holonomic3d.py, holonomicorient.py, agv.py, bicycle.py, dubins.py,
quadrotor.py, quadrotor3d.py, quadrotor3d_simple.py, trailer.py, tool.py,
omgtools/problems/problem.py, point2point.py, multiframeproblem.py,
omgtools/basics/optilayer.py.

Simplifications.  Numbers are exact reals, and tan is the exact tangent.
State and goal are vectors that are long enough for the vehicle's class, so
they are functions of the index.  The subgoals list that Holonomic changes
in place is not returned (multiframeproblem.py 145-152 drops it).  The
variables of the problem are a function of the vehicle's number and the
segment; that CasADi rejects a guess with a wrong number of rows is not
modelled.  Only the class of an exception is kept.

Files: `Guess_Model.v`, `Guess_Proofs.v`, `Guess_Proofs2.v`, `Guess_Proofs3.v`, `Guess_Proofs4.v`, `Guess_Proofs5.v`, `Guess_Proofs6.v`, `Guess_Spec.v`.  39 definitions.
Properties using it: C128, C129, C130, C131, C132, C133, C134, C135.

### Gui

The graphical interface in which a user draws an environment
(omgtools/gui/gui.py) and the obstacles of an svg figure
(omgtools/gui/svg_reader.py).

Simplifications.  Widgets are not modelled: an event carries the pixel that
is clicked and what the entry fields hold.  The canvas is the list of its
items above the grid in stacking order (tk draws a new item on top and
find_all lists from bottom to top), each with its bounding box.  Pixels of
events are integers.  Velocity and bounce are carried along and left out.
Reals replace floats.

Files: `Gui_Model.v`, `Gui_Proofs.v`, `Gui_Proofs2.v`, `Gui_Spec.v`.  48 definitions.
Properties using it: C93, C94.

### Label

Names of exported files and filling of templates
(omgtools/export/export.py).

Simplifications.  Strings are lists of characters; the characters are those
of Coq's ascii type.  Reading and writing of the files is left out: a
function on the text of a file stands for it.  A dictionary is the list of
its items in the order of iteration.  Values are strings already, so str is
left out.  An IndexError is None.

Files: `Label_Model.v`, `Label_Proofs.v`, `Label_Spec.v`.  12 definitions.
Properties using it: C210, C211.

### Lift

From spline expressions to the constraints on coefficients that the solver
sees: the operators of omgtools/basics/spline.py applied to the expressions
that vehicles, obstacles and the environment write, and define_constraint
of omgtools/basics/optilayer.py.

Simplifications.  Numbers are exact reals, symbolic CasADi coefficients
behave as numbers, scipy.linalg.solve is exact elimination (Splop_Model);
None where an operation raises.  The splines of an expression are numbered
(Vehicle_Model.sx).

Files: `Lift_Examples.v`, `Lift_Examples2.v`, `Lift_Model.v`, `Lift_Proofs.v`, `Lift_Proofs2.v`, `Lift_Proofs3.v`, `Lift_Proofs4.v`, `Lift_Proofs5.v`, `Lift_Spec.v`.  22 definitions.
Properties using it: C108, C109, C110, C111.

### Loop

The closed loop of a simulation: Simulator.update calls Deployer.update
(predict, solve, store), the problem is simulated for one update time, the
stop criterion is evaluated and the clock advances.  Modelled for a
FixedTPoint2point problem with one vehicle of the holonomic kind (state =
position, input = velocity; holonomic.py, and with one or three components
holonomic1d.py and holonomic3d.py).
Sources: omgtools/execution/simulator.py, omgtools/execution/deployer.py,
omgtools/problems/problem.py, omgtools/problems/point2point.py,
omgtools/vehicles/vehicle.py, omgtools/vehicles/holonomic.py,
omgtools/environment/environment.py, omgtools/environment/obstacle.py.

Simplifications.  Times are exact rationals, signals exact reals.  The
solver is not modelled: its answer is an argument of every update, and
[accepted] says which constraints an answer satisfies that the solver
reports as feasible.  The arrays of a dictionary of signals all have the
same number of columns, so a dictionary is a list of columns.  scipy's
splev is the de Boor recursion on the knot interval that its search loop
finds; odeint solves exactly.  The options 1storder_delay and
input_disturbance are off (their defaults), obstacles do not bounce and
are avoided (the defaults).  Plotting and the storage of trajectories for
plots are left out.  An IndexError is None.

Files: `Loop_Examples.v`, `Loop_Examples2.v`, `Loop_Examples3.v`, `Loop_Model.v`, `Loop_Proofs.v`, `Loop_Proofs10.v`, `Loop_Proofs11.v`, `Loop_Proofs12.v`, `Loop_Proofs2.v`, `Loop_Proofs3.v`, `Loop_Proofs4.v`, `Loop_Proofs5.v`, `Loop_Proofs6.v`, `Loop_Proofs7.v`, `Loop_Proofs8.v`, `Loop_Proofs9.v`, `Loop_Spec.v`.  45 definitions.
Properties using it: C112, C113, C114, C115, C116, C117, C118.

### Memo

What a simulation keeps: the columns of the signals of a vehicle, the
trajectories and predictions that are stored with them, and how a fleet
passes on states, inputs and conditions to its vehicles.
Sources: omgtools/vehicles/vehicle.py, omgtools/vehicles/fleet.py,
omgtools/problems/problem.py.

Simplifications.  A column of the trajectories of a plan is identified by
the plan and its index; a plan has n columns.  All rows of the signals but
state, input and pose grow like the time (vehicle.py 363-374); input and pose
grow with time and state.  Simulated times are not negative.  The entries of
traj_storage, traj_storage_kn and pred_storage grow by the same numbers of
entries for every key (vehicle.py 397-399), so there is one list; its
entries are the plans.  Objects that are stored are not changed afterwards:
predict and store make new arrays.  The options input_disturbance and
1storder_delay are left out.  The vehicles of a fleet are of any type, with
the setter as a function; setters that raise are left out.

Files: `Memo_Model.v`, `Memo_Proofs.v`, `Memo_Spec.v`.  17 definitions.
Properties using it: C204, C205, C206.

### Mill

Machining per segment: Deployer.update_segment and Deployer.check_results
for a GCodeSchedulerProblem with one Tool.  Every pass of the loop starts
from the end values of the previous pass, solves the local problem, appends
the samples of the first segment and its end values to the trajectories,
and takes them back if the solver did not succeed.
Sources: omgtools/execution/deployer.py,
omgtools/problems/gcodeschedulerproblem.py,
omgtools/problems/gcodeproblem.py, omgtools/vehicles/tool.py,
omgtools/vehicles/vehicle.py.

Simplifications.  Times are exact rationals, signals exact reals, splev and
la.solve as in Loop_Model and Concat_Model.  The solver is not modelled: its
answer is an argument of every pass.  The four trajectories (state, input,
dinput, ddinput) always have the same number of columns, so they are one
list of columns.  The tool is never simulated in this mode, so it has no
attribute signals and curr_state is the predicted state.  The state of the
problem is a list of floats (deployer.py 105 with problem.py 146-149).  The
update time and the delay that Deployer.update computes (deployer.py 45-66)
do not reach the prediction, because the states are enforced
(vehicle.py 303-321), nor the local problem (gcodeproblem.py 135-152 and
184-193); they are left out.  Plotting and printing are left out, and the
breakpoint of deployer.py 193 is continued.  np.array(x)/0. is nan or inf
in the code and 0 here ([finite_line] says when no division by zero
happens).  A raised exception is None.

Files: `Mill_Examples.v`, `Mill_Model.v`, `Mill_Proofs.v`, `Mill_Proofs2.v`, `Mill_Proofs3.v`, `Mill_Proofs4.v`, `Mill_Spec.v`.  29 definitions.
Properties using it: C185, C186, C187, C188, C189.

### Mission

Several runs of a simulation after each other, with pauses between them:
Simulator.run and Simulator.sleep for a FixedTPoint2point problem with one
vehicle of the holonomic kind.  The loop of one run is that of Loop_Model.
Sources: omgtools/execution/simulator.py, omgtools/execution/deployer.py,
omgtools/problems/problem.py, omgtools/problems/point2point.py,
omgtools/vehicles/vehicle.py.

Simplifications.  Those of Loop_Model.  Between two runs the user may set
other terminal conditions (the goal is an argument of every run) and changes
nothing else.  The list Simulator.time is left out here (Timing_Model).  An
AttributeError is None.

Files: `Mission_Examples.v`, `Mission_Examples2.v`, `Mission_Examples3.v`, `Mission_Model.v`, `Mission_Proofs.v`, `Mission_Proofs2.v`, `Mission_Proofs3.v`, `Mission_Proofs4.v`, `Mission_Proofs5.v`, `Mission_Proofs6.v`, `Mission_Spec.v`.  12 definitions.
Properties using it: C136, C137, C138, C139, C140, C141, C142.

### Movie

Model of the frame selection in omgtools/execution/plotlayer.py.

Simplifications: only the indices of the drawn samples are modelled, not
the drawing; exceptions are None.

Files: `Movie_Model.v`, `Movie_Proofs.v`, `Movie_Spec.v`.  6 definitions.
Properties using it: C56.

### Multi

Model of the segment-wise problems: omgtools/problems/multiframeproblem.py
and omgtools/problems/gcodeproblem.py.

Simplifications: one vehicle; a segment is the list of its splines; the
spline evaluations are those of Spline_Model on exact reals; a constraint
with bounds 0., 0. is an equation, one with bounds -inf, 0. an inequality.

Files: `Multi_Model.v`, `Multi_Proofs.v`, `Multi_Proofs2.v`, `Multi_Spec.v`.  13 definitions.
Properties using it: C47, C84.

### Nurbs

Model of the rational and the tensor product splines of
omgtools/basics/spline.py.

Simplifications: as in Splop_Model; a call on an array of points is modelled
by the call on one point; a division by zero, for which numpy returns nan or
inf, is None; the division s1 / s2 is the method __div__ (which only Python 2
calls for /); coefficients are numbers (no cvxpy or cvxopt variables).

Files: `Nurbs_Examples.v`, `Nurbs_Model.v`, `Nurbs_Proofs.v`, `Nurbs_Proofs2.v`, `Nurbs_Proofs3.v`, `Nurbs_Proofs4.v`, `Nurbs_Proofs5.v`, `Nurbs_Proofs6.v`, `Nurbs_Spec.v`.  33 definitions.
Properties using it: C179, C180, C181, C182, C183, C184.

### Obst

Moving obstacles: the spline that predicts their position over the horizon,
the simulation of their motion with scheduled changes of state, measured
states, and rotating obstacles.
Source: omgtools/environment/obstacle.py.
One axis at a time: the code treats the axes independently (the default
simulation matrix is kron(companion, identity), 175-176).

Files: `Obst_Model.v`, `Obst_Proofs.v`, `Obst_Proofs2.v`, `Obst_Proofs3.v`, `Obst_Proofs4.v`, `Obst_Spec.v`.  35 definitions.
Properties using it: C48, C80, C81.

### Opti

Model of omgtools/basics/optilayer.py: labels, symbol dictionaries,
constraints and parameters of OptiChild / OptiFather.

Simplifications, common to the whole file:
- strings are ASCII strings; str.isalpha and str.isdigit are the ASCII tests;
- a Python dict / OrderedDict is an association list without duplicate keys,
kept in insertion order;
- an object used as a dictionary key (identity hash) is its number;
- a casadi MX symbol is its name; the matrix it stands for is not modelled.

Files: `Opti_Model.v`, `Opti_Proofs.v`, `Opti_Proofs2.v`, `Opti_Proofs3.v`, `Opti_Spec.v`.  61 definitions.
Properties using it: C11, C12, C13, C14, C60, C61, C62.

### Path

Reading the paths of an svg figure (omgtools/gui/svg_reader.py).

Simplifications.  A character is a digit, a point, a comma, a minus sign, a
space, one of the four letters of the pattern, or another character; blanks
other than the space count as other characters.  The value of a token is a
rational number together with the python type (int or float), so rounding
and overflow are left out.  eval follows python 3, where an integer other
than zero does not start with a zero.  The part of the figure that matters
is the tree of groups with the texts of their paths.  What is written to
the file is kept as the list of numbers before str is applied to it.

Files: `Path_Model.v`, `Path_Proofs.v`, `Path_Spec.v`.  28 definitions.
Properties using it: C207, C208, C209.

### Quad

Quadrotor, Quadrotor3D and SimpleQuadrotor3D (omgtools/vehicles).

Simplifications as in Vehicle_Model.v and Wheel_Model.v: products of
splines are pointwise products; twice integrated splines are given by
antiderivatives.

Files: `Quad_Model.v`, `Quad_Proofs.v`, `Quad_Proofs2.v`.  32 definitions.
Properties using it: C52, C77, C78.

### Sched

Model of omgtools/problems/schedulerproblem.py, class SchedulerProblem: which
frames the scheduler looks at, when it moves on to the next ones, and what it
hands over to the local problem.

The frames themselves are those of Frame_Model.  Not modelled: the solution of
the local problem (its motion times are an input of every call of solve), the
coefficients of the initial guesses (only their motion times are kept), the
values set_init_spline_values and set_initial_conditions, plotting, storing
and printing.  The global planner is a function from the current position to a
path.  Only the first two entries of the state of the vehicle are kept.  The
comparisons `frame_type is 'shift'` and `frame.type is 'corridor'` are taken as
comparisons of the strings.

Files: `Sched_Model.v`, `Sched_Proofs.v`, `Sched_Proofs2.v`, `Sched_Proofs3.v`, `Sched_Proofs4.v`, `Sched_Proofs5.v`, `Sched_Proofs6.v`, `Sched_Proofs7.v`, `Sched_Proofs8.v`, `Sched_Spec.v`.  58 definitions.
Properties using it: C58, C100, C101, C102, C103.

### Share

What the updaters of a dual method share, and how a distributed problem is
put together and used: the structured vectors and their transformation,
the groups that share a build, the prediction and the formation error.
Sources: omgtools/problems/dualmethod.py 27-39 and 83-177,
omgtools/problems/distributedproblem.py 60-103 and 196-214,
omgtools/vehicles/fleet.py 177-185,
omgtools/problems/problem.py 138-163, omgtools/problems/formation.py 74-101.

Simplifications.  A nested dictionary is the list of its leaves with their
paths (neighbour, child, name or child, name), in the order of insertion;
objects are their labels.  The three kinds of values (SX, MX, DM) are lists
of exact reals.  isinstance(var, struct) is taken to hold for the values of
the structures.  The broadcasting of scalars by casadi is left out: a value
of a wrong length raises.  Basis and transformation of a leaf are arguments.
A raised exception is None.

Files: `Share_Model.v`, `Share_Proofs.v`, `Share_Proofs2.v`, `Share_Proofs3.v`, `Share_Proofs4.v`, `Share_Spec.v`.  33 definitions.
Properties using it: C190, C191, C192, C193, C194.

### Shift

Model of the shifting and extrapolating transformations of
omgtools/basics/spline_extra.py: shift_knot1_fwd, shift_knot1_bwd,
shiftfirstknot_T, extrapolate, extrapolate_T, shift_over_knot,
shiftoverknot_T.

Simplifications: exact reals; a matrix is a function of row and column
number, its sizes are written where it is used; the three number types of
shiftfirstknot_T (numpy, SX, MX) are one; np.linalg.solve is exact
elimination per column of the right hand side (gsolve of Splop_Model, None
where it raises); the limit 1e-10 of extrapolate_T is a parameter; a
raised exception is None.

Files: `Shift_Model.v`, `Shift_Proofs.v`, `Shift_Proofs2.v`, `Shift_Proofs3.v`, `Shift_Proofs4.v`, `Shift_Proofs5.v`, `Shift_Proofs6.v`, `Shift_Proofs7.v`, `Shift_Proofs8.v`, `Shift_Proofs9.v`, `Shift_Spec.v`.  26 definitions.
Properties using it: C104, C105, C106, C107.

### Spline

Model of omgtools/basics/spline.py and spline_extra.py (B-spline part).

Simplifications that hold for the whole file: numbers are exact reals;
numpy arrays are lists; a call on an array of points is modelled by the
call on one point; symbolic CasADi coefficients behave as numbers; the
memoize / cached_class decorators (spline.py 39-83) are identity on
results and are not modelled here.

Files: `Spline_Model.v`, `Spline_Proofs.v`, `Spline_Proofs2.v`, `Spline_Proofs3.v`, `Spline_Proofs4.v`, `Spline_Proofs5.v`, `Spline_Spec.v`.  44 definitions.
Properties using it: C01, C02, C03, C04, C05, C06, C07, C10.

### Splop

Model of the spline algebra of omgtools/basics/spline.py on different
bases: combined bases, basis transformation, sum, product, power and knot
insertion.

Simplifications that hold for the whole file: numbers are exact reals;
scipy.linalg.solve is exact Gaussian elimination (below), which fails
exactly when it finds no pivot, as the LAPACK routine raises LinAlgError
on an exactly zero pivot; matrices are lists of rows or, where said so, of
columns; sparse and CasADi matrices behave as plain ones.

Files: `Splop_Model.v`, `Splop_Proofs.v`, `Splop_Proofs2.v`, `Splop_Proofs3.v`, `Splop_Proofs4.v`, `Splop_Spec.v`.  34 definitions.
Properties using it: C08, C09, C82, C83.

### Step

Simulating by hand: Simulator.step, run_once and hard_stop for a
FixedTPoint2point problem with one vehicle of the holonomic kind, and the
lists of obstacles that an environment keeps.  One update is that of
Loop_Model.
Sources: omgtools/execution/simulator.py, omgtools/execution/deployer.py,
omgtools/problems/point2point.py, omgtools/vehicles/vehicle.py,
omgtools/environment/environment.py.

Simplifications.  Those of Loop_Model and Mission_Model.  The pose of a
vehicle of the holonomic kind is its state with zeros appended, so that the
rows of pose that overrule_state writes (vehicle.py 347, 349) are left out;
the rows splines and dinput are not touched by it.  run_once calls
Deployer.update with an infinite update time; the states are enforced then
(problem.py 160-161, vehicle.py 315-321), before the update time is read.
The times that update_timing turns into arrays of one entry (simulator.py
128-129) are numbers here.  Objects are identified by a number; `in`
compares obstacles by identity (environment.py 99), and rooms, which
list.index compares entry by entry (environment.py 96), are taken to differ.

Files: `Step_Examples.v`, `Step_Model.v`, `Step_Proofs.v`, `Step_Proofs2.v`, `Step_Proofs3.v`, `Step_Proofs4.v`, `Step_Proofs5.v`, `Step_Spec.v`.  26 definitions.
Properties using it: C199, C200, C201, C202, C203.

### Store

Model of the store of decision variables of omgtools/basics/optilayer.py
(definition of variables, initial values, reading, writing and
transforming them) and of what the problems do with it between two solves
(omgtools/problems/problem.py solve and sleep, point2point.py init_step,
multiframeproblem.py init_step, omgtools/basics/spline_extra.py
shift_spline).

Simplifications: exact reals; an array is the list of its columns; the
CasADi structure of the variables is a dictionary with keys (label of the
child, name) in the order of the entries; assigning an array of another
shape raises, a number is spread over the entry (an array with one entry
is given as a number); substitutes (define_substitute) are left out; a
raised exception is the name of its class.  The solver is a function of
the initial guess; parameters and bounds are the subject of Opti_Model.

Files: `Store_Examples.v`, `Store_Model.v`, `Store_Proofs.v`, `Store_Proofs2.v`, `Store_Proofs3.v`, `Store_Proofs4.v`, `Store_Proofs5.v`, `Store_Spec.v`.  59 definitions.
Properties using it: C152, C153, C154, C155, C156, C157, C158, C159, C160.

### Svg

Conversion of an svg figure to G-code and to obstacles
(omgtools/gui/svg_reader.py).

Simplifications.  The text of the xml file is not modelled: an element is
given by its numbers.  The numbers of a command are kept as numbers, so
writing them with str and reading them back with float (lines 487-488) is
taken to be exact.  Reals replace floats.  Exceptions are values.

Files: `Svg_Model.v`, `Svg_Proofs.v`, `Svg_Proofs2.v`, `Svg_Proofs3.v`, `Svg_Spec.v`.  30 definitions.
Properties using it: C57, C92.

### Team

Several vehicles in one problem: the constraints that keep them apart
(omgtools/environment/environment.py 148-180 with omgtools/vehicles/
vehicle.py 122-158, 192-221) and in formation (omgtools/problems/
formation_central.py 36-81), on the level of coefficients.

The solver's splines are numbered; var gives the number of component c of
the variable called n of the object with label l.  A vehicle is given by its
label, its number of shapes and its first shape, and by the expressions for
its position (and the tangent of half its heading) in each segment.

Simplifications: as in Lift_Model; room constraints (vehicle.py 159-190,
222-232), which do not depend on other vehicles, are left out (Room
properties); all checkpoints of a shape have the same radius; vehicles are
the same object exactly when they have the same label.

Files: `Team_Examples.v`, `Team_Model.v`, `Team_Proofs.v`, `Team_Proofs2.v`, `Team_Proofs3.v`.  27 definitions.
Properties using it: C172, C173, C174, C175, C176, C177, C178.

### Timing

Time bookkeeping of the simulator, the deployer, the fixed-time problem and
the vehicle logs.  Times are exact rationals instead of floats.

Files: `Timing_Model.v`, `Timing_Proofs.v`, `Timing_Proofs2.v`, `Timing_Spec.v`.  27 definitions.
Properties using it: C26, C27, C28, C29, C31, C70.

### Trip

The splines a solved problem of a vehicle with integrated position is made
of: Dubins, Bicycle, AGV and Trailer (integrate_once), Quadrotor3D
(integrate_twice), on the level of coefficients.

Numbering as in Wheel_Model and Quad_Model: 0 is v_til, 1 is tg_ha, 2 and 3
the position; with the option substitution 4, 5 are the variables dx, dy
and 6, 7 the position self.x, self.y made of them.  Of a Quadrotor3D 0, 1, 2
are f_til, q_phi, q_theta, 3 to 5 the position and 6 to 8 the velocity; with
the option substitution 9 to 11 are the variables ddx, ddy, ddz, 12 to 14
and 15 to 17 the position and velocity made of them.

Simplifications: as in Lift_Model (exact reals, None where an operation
raises; the symbols t and T have their values).

Files: `Trip_Examples.v`, `Trip_Examples2.v`, `Trip_Model.v`, `Trip_Proofs.v`, `Trip_Proofs2.v`, `Trip_Proofs3.v`, `Trip_Proofs4.v`, `Trip_Proofs5.v`, `Trip_Proofs6.v`, `Trip_Proofs7.v`, `Trip_Spec.v`.  24 definitions.
Properties using it: C162, C163, C164, C165, C166, C167, C168, C169, C170, C171.

### Vehicle

Vehicles, first part: spline expressions, the holonomic vehicles, the
machine tool and the arrival tests (omgtools/vehicles).

Simplifications for the whole file.  Numbers are exact reals.  A
constraint given to define_constraint is an expression over the splines of
the vehicle; it is kept as an expression tree [sx], and what is modelled is
its value at one normalised time.  That the coefficients of the constraint
spline bound this value is property C25 of optilayer.py.  The options
[syslimit] and [vel_limit] are compared with `is` in the code; the model
compares values.

Files: `Vehicle_Examples.v`, `Vehicle_Model.v`, `Vehicle_Proofs.v`, `Vehicle_Proofs2.v`, `Vehicle_Spec.v`.  55 definitions.
Properties using it: C30, C50, C77, C78, C79.

### Warm

Initial guesses of the GCode scheduler, and the terminal constraints of
problems with a free end.
Sources: omgtools/problems/gcodeschedulerproblem.py 752-875, 1010-1131 and
1133-1185, omgtools/problems/point2point.py 377-418.

Simplifications.  Numbers are exact reals.  The solver of
get_init_guess_ring is left out: its answer is a pair of splines of which the
constraints are known or not.  An element of the list of guesses holds the
coefficients of a segment and its motion time.  A raised exception is None;
a division by a limit that is zero is None too.

Files: `Warm_Examples.v`, `Warm_Model.v`, `Warm_Proofs.v`, `Warm_Proofs2.v`, `Warm_Spec.v`.  25 definitions.
Properties using it: C195, C196, C197, C198.

### Wheel

Vehicles with a heading: Dubins, Bicycle, AGV and Trailer.

Splines of a Dubins, Bicycle or AGV: 0 is v_til, 1 is tg_ha; index 2 and 3
stand for the integrated position x, y.  Simplification: products of
splines are pointwise products of values (the product spline is exact, see
C08); running_integral of dx is given by its values [I] (C05 says it is an
antiderivative of dx).

Files: `Wheel_Model.v`, `Wheel_Proofs.v`, `Wheel_Proofs2.v`, `Wheel_Proofs3.v`.  33 definitions.
Properties using it: C51, C53, C54, C77, C78.


## Properties and status

| id | title | status | theorems |
|---|---|---|---|
| C01 | B-spline basis is a partition of unity | proved | 4 |
| C02 | Coefficient bounds bound the spline | proved | 1 |
| C03 | Same-basis spline arithmetic is pointwise | proved | 6 |
| C04 | BSpline.derivative is the mathematical derivative | proved | 4 |
| C05 | running_integral is an antiderivative starting at zero; integral is its final value | proved | 5 |
| C06 | Knot insertion does not change the spline | proved | 3 |
| C07 | scale() is an affine change of the argument | proved | 2 |
| C08 | Sum/product basis has the knots it needs | proved | 7 |
| C09 | Spline power | proved | 3 |
| C10 | Equal bases hash equally and Greville points are in the domain | proved | 4 |
| C11 | Labels are unique | proved | 6 |
| C12 | Constraint slicing with skip | proved | 4 |
| C13 | Parameters reach the solver unchanged | proved | 3 |
| C14 | Symbols are bound to exactly one definition | proved | 2 |
| C15 | A* paths are real paths | proved | 2 |
| C16 | A* terminates | proved | 1 |
| C17 | A* failure reports | proved | 4 |
| C18 | Diagonal moves never cut corners | proved | 5 |
| C19 | Snapping to the grid | proved | 5 |
| C20 | A* path optimality | proved | 4 |
| C21 | Occupied cells are detected | proved | 7 |
| C22 | Rectangle overlap test | proved | 4 |
| C23 | Line intersection | proved | 5 |
| C24 | Circle/polyhedron test | proved | 6 |
| C25 | Separating hyperplane excludes collision | proved | 4 |
| C26 | Simulator time base | proved | 9 |
| C27 | time2index | proved | 2 |
| C28 | Fixed-time problem keeps its horizon grid | proved | 4 |
| C29 | Spline shift bookkeeping in receding horizon | proved | 6 |
| C30 | Arrival test | proved | 6 |
| C31 | Logged signals stay aligned | proved | 7 |
| C32 | Fleet neighbour relation | proved | 11 |
| C33 | Formation constraint implies the formation | proved | 11 |
| C34 | Central formation problem constrains enough pairs | proved | 6 |
| C35 | Distributed problem structure | proved | 15 |
| C36 | ADMM consensus update is optimal | proved | 7 |
| C37 | ADMM exchange keeps copies equal | proved | 7 |
| C38 | ADMM residual accounting | proved | 5 |
| C39 | Nesterov acceleration factor | proved | 10 |
| C40 | Iteration budget of dual methods | proved | 8 |
| C41 | G-code block chain is continuous | proved | 16 |
| C42 | Block division is lossless | proved | 4 |
| C43 | Arc sampling end points | proved | 6 |
| C44 | Line segments become covering rooms | proved | 6 |
| C45 | Scheduler window over the program | proved | 9 |
| C46 | Bang-bang jerk guess | proved | 9 |
| C47 | Connection constraints give smooth joints | proved | 9 |
| C48 | Obstacle prediction spline | proved | 9 |
| C49 | Obstacle bounce keeps speed | proved | 16 |
| C50 | Velocity limits carry to physical time | proved | 15 |
| C51 | Half-angle substitution is exact | proved | 14 |
| C52 | Quadrotor flatness | proved | 8 |
| C53 | Trailer stays hitched | proved | 8 |
| C54 | Dubins fleet centre signal | proved | 3 |
| C55 | Exported vector layout | proved | 14 |
| C56 | Movie frame selection | proved | 10 |
| C57 | SVG circle through three points | proved | 11 |
| C58 | Scheduler frames form a window along the path | proved | 8 |
| C59 | Frame borders stay inside the room | proved | 11 |
| C60 | Symbols are replaced with the entry they stand for | proved | 2 |
| C61 | No constraint is lost | proved | 4 |
| C62 | Shutdown conditions open exactly their own constraint | proved | 2 |
| C63 | Shape vertices | proved | 2 |
| C64 | Point in polyhedron | proved | 4 |
| C65 | Distances | proved | 7 |
| C66 | Point in rectangle over time | proved | 4 |
| C67 | Obstacle overlap | proved | 4 |
| C68 | Room constraints keep the vehicle inside | proved | 4 |
| C69 | Rotation of solids | proved | 2 |
| C70 | Delay compensation of the deployer | proved | 3 |
| C71 | Zero primal residual means coupled | proved | 1 |
| C72 | Stationary ADMM states are optimal | proved | 1 |
| C73 | Converted G-code programs | proved | 3 |
| C74 | Arc segments become covering rooms | proved | 4 |
| C75 | Segment switching test | proved | 5 |
| C76 | Jerk-limited motion time | proved | 2 |
| C77 | Start constraints reproduce the prediction | proved | 11 |
| C78 | Terminal constraints imply arrival | proved | 10 |
| C79 | Tool stays within tolerance of the segment | proved | 5 |
| C80 | Simulated obstacles follow their schedule | proved | 14 |
| C81 | Rotating obstacles are rigid | proved | 5 |
| C82 | Basis transformation keeps the curve | proved | 6 |
| C83 | Sums and products of splines are pointwise | proved | 7 |
| C84 | Warm start of free-time problems | proved | 11 |
| C85 | The stored trajectory is the optimised one | proved | 23 |
| C86 | Exported constraint bounds | proved | 5 |
| C87 | Exported shared variables | proved | 3 |
| C88 | Exported spline sampling | proved | 5 |
| C89 | Exported prediction | proved | 11 |
| C90 | Exported time keeping | proved | 6 |
| C91 | Exported distributed time keeping | proved | 5 |
| C92 | SVG figures to G-code | proved | 8 |
| C93 | Graphical interface and environment | proved | 28 |
| C94 | SVG figures to obstacles | proved | 8 |
| C95 | Corridor frames are free of stationary obstacles | proved | 7 |
| C96 | The last waypoint of a frame is reachable | proved | 11 |
| C97 | Obstacles found in a frame | proved | 16 |
| C98 | Shift frames have no usable end | proved | 3 |
| C99 | L-shaped frames | proved | 5 |
| C100 | Moving obstacles of the scheduler's frames | proved | 6 |
| C101 | Configurations in which the scheduler starts | proved | 9 |
| C102 | Motion times of the scheduler | proved | 4 |
| C103 | Target of the scheduler's local problem | proved | 2 |
| C104 | Shifting the first knots | proved | 2 |
| C105 | Shifting the first knots back | proved | 4 |
| C106 | Extrapolation | proved | 4 |
| C107 | Shifting over a knot | proved | 6 |
| C108 | Constraints on coefficients hold at all times | proved | 6 |
| C109 | Constraints with skipped coefficients | proved | 3 |
| C110 | Solved holonomic problem is a trip within limits | proved | 2 |
| C111 | Solved collision constraints keep bodies apart at all times | proved | 6 |
| C112 | The simulated motion | proved | 1 |
| C113 | Limits over the whole simulation | proved | 1 |
| C114 | Distance from the plan | proved | 1 |
| C115 | Safety over the whole simulation | proved | 1 |
| C116 | The simulation stops at the goal | proved | 1 |
| C117 | The reported objective bounds the distance to the goal | proved | 1 |
| C118 | Options for prediction and simulation must agree | proved | 1 |
| C119 | The simulated motion with free end time | proved | 1 |
| C120 | Limits with free end time | proved | 1 |
| C121 | Distance from the plan with free end time | proved | 1 |
| C122 | Safety with free end time | proved | 1 |
| C123 | Arrival with free end time | proved | 2 |
| C124 | Plans end with a pause | proved | 1 |
| C125 | Stop, objective and termination with free end time | proved | 3 |
| C126 | A first motion shorter than a sample | proved | 1 |
| C127 | Columns of the signals with free end time | proved | 1 |
| C128 | Guesses are straight lines | proved | 2 |
| C129 | Quadrotor guesses start and end at rest | proved | 1 |
| C130 | Guesses for headings | proved | 3 |
| C131 | Guesses through several rooms | proved | 2 |
| C132 | reinitialize sets the guesses | proved | 6 |
| C133 | Resetting the guess during a run | proved | 5 |
| C134 | Guesses at the definition of the variables | proved | 4 |
| C135 | Goal headings outside the range of the arctangent | proved | 3 |
| C136 | Runs after each other | proved | 2 |
| C137 | Limits in every run of a mission | proved | 1 |
| C138 | Pauses | proved | 1 |
| C139 | Safety in every run of a mission | proved | 1 |
| C140 | The objective over several runs | proved | 2 |
| C141 | No jumps in the log of a mission | proved | 2 |
| C142 | Time stamps after a run | proved | 1 |
| C143 | Plane shapes as bodies | proved | 3 |
| C144 | Regular polygons as bodies | proved | 2 |
| C145 | Solids as bodies | proved | 4 |
| C146 | Canvas limits | proved | 4 |
| C147 | Drawn shapes lie in what is kept free | proved | 4 |
| C148 | Pictures do not overlap | proved | 3 |
| C149 | Drawings of particular vehicles | proved | 9 |
| C150 | Trailers and the vehicle in front | proved | 3 |
| C151 | Rooms, environments and several shapes in drawings | proved | 4 |
| C152 | Values of variables are read back | proved | 8 |
| C153 | The vector of all variables | proved | 5 |
| C154 | Initial values of the variables | proved | 6 |
| C155 | Transforming the splines of a segment | proved | 6 |
| C156 | Transformations of the bases | proved | 2 |
| C157 | Guess after a knot with fixed motion time | proved | 4 |
| C158 | Guess with free motion time | proved | 8 |
| C159 | What solve stores | proved | 3 |
| C160 | Standing still while sleeping | proved | 2 |
| C161 | Polynomial pieces | proved | 4 |
| C162 | Integrated position | proved | 1 |
| C163 | Trip of a Dubins vehicle | proved | 2 |
| C164 | Reach of a Dubins vehicle | proved | 2 |
| C165 | Safe trip with heading | proved | 2 |
| C166 | Trip of a Bicycle and an AGV | proved | 1 |
| C167 | Trip of a Trailer | proved | 1 |
| C168 | Trip of a Quadrotor3D | proved | 1 |
| C169 | Trips of the flat quadrotors | proved | 2 |
| C170 | Trips of the holonomic vehicles | proved | 5 |
| C171 | Substituted positions | proved | 4 |
| C172 | Planar teams stay apart | proved | 1 |
| C173 | Teams in space stay apart | proved | 1 |
| C174 | Which teams are refused | proved | 1 |
| C175 | Names of the hyperplanes | proved | 3 |
| C176 | Central formations are kept | proved | 2 |
| C177 | Soft central formations | proved | 1 |
| C178 | Formations with room for everybody | proved | 1 |
| C179 | Rational splines are weighted averages | proved | 3 |
| C180 | Quotients, products and sums of rational splines | proved | 6 |
| C181 | Derivatives of rational splines | proved | 3 |
| C182 | Knot insertion into rational splines | proved | 2 |
| C183 | Tensor product splines as functions | proved | 9 |
| C184 | Integrals of tensor product splines | proved | 4 |
| C185 | Smooth machining over all segments | proved | 5 |
| C186 | Recorded machining trajectory | proved | 4 |
| C187 | Rejected segments | proved | 7 |
| C188 | Limit on the retries | proved | 6 |
| C189 | Progress and end of machining | proved | 4 |
| C190 | Shared vectors and dictionaries hold the same values | proved | 7 |
| C191 | Shared splines are transformed with the local ones | proved | 9 |
| C192 | The formation error measures the deviation from the formation | proved | 6 |
| C193 | Problems are built once per class and number of neighbours | proved | 4 |
| C194 | What the vehicles of a distributed problem predict from | proved | 3 |
| C195 | Where the initial guesses of a GCode problem come from | proved | 6 |
| C196 | The guess for a ring stays in the ring | proved | 8 |
| C197 | Motion time and check of a guess | proved | 9 |
| C198 | Free ends | proved | 7 |
| C199 | Stepping the simulator is running it | proved | 5 |
| C200 | Steps of another length | proved | 3 |
| C201 | run_once executes one plan | proved | 1 |
| C202 | Hard stops | proved | 4 |
| C203 | The obstacles of an environment | proved | 9 |
| C204 | Stored plans belong to the recorded samples | proved | 6 |
| C205 | Fleets pass on values in order | proved | 3 |
| C206 | The vehicles of a problem | proved | 2 |
| C207 | Paths of a figure are read as their points | proved | 5 |
| C208 | What ends the reading of paths | proved | 3 |
| C209 | Which paths are found | proved | 3 |
| C210 | Labels of exported files | proved | 8 |
| C211 | Filled templates | proved | 3 |
| C212 | Include guards | proved | 6 |

## Findings that are theorems

Each is an `exists` statement with a concrete witness on the model.

* `C01_overclamped_refuted`: B-spline basis is a partition of unity
* `C08_power_knots_refuted`: basis ** 0 loses inner knots
* `C09_power_zero_refuted`: s ** 0 is s
* `C11_endless_refuted`: a label such as "veh_" or "veh_0" makes the recursion endless, the empty label is an IndexError
* `C12_dual_basis_refuted`: with a skip pair, the number of rows no longer matches the length of the basis that is stored for the transformation of the dual variables
* `C12_zero_refuted`: skip=[0,0] asks for nothing to be left out, but leaves out everything
* `C17_false_alarm_refuted`: the goal is next to the start and still 'There is no path' is raised
* `C18_corner_cut_refuted`: cells of height 1/2: a blocked corner is cut
* `C18_refused_refuted`: cells of height 2: a legal move is refused although its reverse is offered
* `C19_closest_refuted`: "select closest point which is not occupied" (390) is not what happens: with cells 2 wide and 1 high a diagonal cell at squared distance 5 is chosen although the free cell above is at squared distance 1
* `C20_optimal_refuted`: but it is not always the shortest one: 23/4 against 21/4
* `C21_other_shape_refuted`: a stationary obstacle of another shape: the first one crashes the planner, a later one blocks the cells of the previous obstacle once more, i.e. none
* `C21_thin_refuted`: a wall narrower than a cell that crosses a column of cells is not seen at all
* `C23_touching_refuted`: but an end point resting on the other segment can be missed
* `C24_corner_refuted`: a disc that contains the lower left corner is missed
* `C24_descending_refuted`: a disc cutting a descending edge is missed
* `C26_clock_refuted`: and they really drift apart when the update time is not a multiple of the sample time
* `C26_coarse_stop_refuted`: for sample times of a second or more a stop is not seen at all (1 > sample_time)
* `C26_last_sample_refuted`: stopping after a single sample: the corrected time is 0, which selects the full update time, so entries without a vehicle sample appear
* `C27_nearest_refuted`: a time inside the recording, nearer to the next sample, gets None
* `C29_lost_refuted`: an update of two intervals shifts only once
* `C29_rounding_refuted`: just before a knot the two roundings disagree: the spline is shifted while the parameter t still counts from the old knot
* `C30_arrival_refuted`: so the test can succeed with both quantities above the tolerance
* `C30_quadrotor3d_refuted`: without any thrust it counts as hovering
* `C31_misaligned_refuted`: a time just below three samples: the integrated state and pose are one column short
* `C32_small_refuted`: with two vehicles the circular list names the same neighbour twice, with one the vehicle itself
* `C33_keys_refuted`: a configuration dictionary that names only the second coordinate cannot be built at all: the centre list is paired by place and has no entry 1
* `C34_one_refuted`: with one vehicle the construction raises IndexError
* `C34_two_refuted`: with two vehicles no constraint is left
* `C35_layout_refuted`: in general the copy is shorter than the original, so that the whole-vector assignment x_j = x_i of the exchange mixes sizes
* `C35_self_refuted`: with two children of one updater in a constraint the updater becomes its own neighbour and gets the constraint twice
* `C36_singular_refuted`: a constraint that is listed twice (see C35) makes it singular
* `C37_shift_refuted`: vehicles with different knot times do not shift together, and then the copies differ
* `C37_start_refuted`: the start values do not agree: the first x-update uses copies that differ from the originals
* `C38_dd_refuted`: but it squares twice and so is not the root of the summed squares
* `C39_reset_refuted`: unless the remembered residual is zero: then every later step is taken back
* `C40_residual_plot_refuted`: time-sample indices, of which there are more than updates, break it
* `C40_stop_refuted`: with a limit arrival is not tested at all: all vehicles arrived, yet no stop
* `C41_center_refuted`: an omitted offset does not mean zero offset: the centre is put at coordinate 0
* `C41_comment_refuted`: a comment of several words is not skipped: the word X10) is read as a number and fails
* `C41_connections_refuted`: but the end of the last block can be missing: its start is listed twice
* `C41_feed_refuted`: G-code block chain is continuous
* `C41_subfile_refuted`: a called subfile is executed after the whole main file, not where it is called
* `C43_full_circle_refuted`: a full circle, given by equal start and end, is sampled as a single point
* `C43_height_refuted`: a G02 arc above height 0 without K word: the radius includes the height and the samples miss the start
* `C44_parts_refuted`: for a change of height the parts are laid out along the plane and the third does not contain its own start
* `C45_numbers_refuted`: with varying tolerances both halves of a split arc get the same numbers
* `C45_renumbered_refuted`: with the repeated numbers of a split arc the window runs past the end of the room list and fails
* `C45_stop_refuted`: the run can stop in an earlier room that ends at the goal of the program
* `C45_stuck_refuted`: a program whose first move equals its last move never leaves the first room
* `C46_few_refuted`: with five coefficients the clamped ends overlap: the third is overwritten and the start acceleration is not zero
* `C46_integral_refuted`: zero sum of the coefficients is not zero net acceleration when the jerk basis is not piecewise constant
* `C47_top_derivative_refuted`: the derivative of order p is not connected
* `C47_zero_times_refuted`: motion times are only constrained to be non-negative; with zero times the derivatives are not connected
* `C48_segments_refuted`: with acceleration the second segment restarts with the velocity of the first one: wrong position
* `C48_simulation_refuted`: a scheduled jump is not predicted
* `C49_corner_refuted`: out over two walls: still leads out of one of them
* `C49_deep_refuted`: further out than 0.15: the wrong component may be reversed
* `C49_inward_refuted`: an obstacle already on its way back in is turned outwards
* `C49_runs_refuted`: with general polygons it does
* `C50_tool_z_refuted`: which leaves the velocity along z unbounded
* `C51_braking_refuted`: there is no limit on braking
* `C51_correction_refuted`: a slow turn to the right is taken for a standstill, because the tests lack absolute values: the steering angle written is zero though the vehicle turns
* `C51_dubins_acceleration_refuted`: but amax limits nothing: the acceleration is unbounded
* `C52_simple_angle_refuted`: and admissible pitch angles are excluded, because the angle is used in place of its tangent
* `C52_simple_rate_refuted`: the limit on the roll rate alone is not kept
* `C53_angle_refuted`: otherwise the limit can be exceeded
* `C53_angle_strict_refuted`: and admissible angles are excluded
* `C53_start_refuted`: the state set by set_initial_conditions is not hitched
* `C55_row_parameter_refuted`: of a row vector only the first entry is written
* `C55_scalar_variable_refuted`: any variable with one row makes the generated code that reads the result back invalid
* `C55_shared_name_refuted`: splines with one name in two children: one matrix is used for both
* `C55_two_columns_refuted`: two position splines before a hyperplane: the second is shifted twice, the hyperplane not at all
* `C56_default_last_refuted`: Movie frame selection
* `C56_more_frames_refuted`: seven frames of eleven samples are ten frames
* `C56_single_frame_refuted`: Movie frame selection
* `C56_tikz_last_refuted`: the tikz format never shows the last sample
* `C57_corner_refuted`: which is not the centre of their circle
* `C57_horizontal_refuted`: SVG circle through three points
* `C57_vertical_refuted`: SVG circle through three points
* `C59_base_refuted`: and so does the corridor frame around a vehicle near a wall
* `C59_moved_refuted`: but the shift frame around the goal is enlarged again and can leave the room
* `C59_scaled_refuted`: the lower side does pass the room
* `C60_underscore_refuted`: with an underscore in a label, a variable of one object can be taken for a variable of another object
* `C61_count_after_reset_refuted`: reset does not reset n_cons: afterwards it no longer counts the rows
* `C61_lost_refuted`: with an underscore in a label, the constraint of one child replaces the constraint of another
* `C62_python3_refuted`: in Python 3 exec does not create the local name: any problem with a shutdown condition fails with a NameError
* `C64_counterclockwise_refuted`: but a counter-clockwise polygon rejects its own points
* `C65_repeat_refuted`: but asking twice gives another answer: the first call moves the stored vertices
* `C66_crossing_refuted`: a fast crossing can go unnoticed
* `C68_sphere_refuted`: a sphere can stick out of the room: its radius is not in the constraint
* `C70_truncated_refuted`: off the sample grid the delay is truncated: 1.9 samples late counts as 1
* `C73_center_refuted`: an arc without I keeps its centre at coordinate 0 instead of moving with the program
* `C73_offset_refuted`: a program whose first move leaves out a coordinate is not shifted in that coordinate
* `C74_full_circle_refuted`: a full circle gets a room of two tolerance angles only: the opposite point is not covered
* `C74_halves_refuted`: when a split arc is divided further, the parts of the second half record the start of the whole arc
* `C75_margin_refuted`: so the same point is accepted or rejected depending on the direction of the move
* `C76_distance_refuted`: but the distance used for straight moves is the squared length
* `C77_bicycle_refuted`: so a speed of 0.01 can be replaced by zero
* `C78_bicycle_refuted`: so the terminal constraints of a bicycle do not imply a positive arrival test: the remaining steering rate of the previous sample counts
* `C78_quadrotor3d_refuted`: so they do not imply a positive arrival test
* `C79_level_refuted`: a segment at constant height puts no constraint on the height at all
* `C80_measured_log_refuted`: so times and states no longer line up
* `C80_value_at_zero_refuted`: an entry at time 0 standing later: another value is taken
* `C81_measured_refuted`: measured later: the spline does not have the measured angle at the moment of the measurement
* `C84_free_degenerate_refuted`: with exactly two updates to go the whole curve is shifted away
* `C84_free_last_refuted`: near the end the motion time is not reduced although the curve is shifted
* `C84_free_refuted`: the shift is not the travelled fraction
* `C84_multi_negative_refuted`: the time of the first segment can become negative
* `C84_multi_shift_refuted`: the first segment is shifted by a fraction of the total time
* `C85_equal_cubes_refuted`: t^3 cut into two segments of one second: 2 is stored for t = 1
* `C85_negative_refuted`: connected segments on the negative side: the stored trajectory ends at -9/4 instead of -8
* `C85_requested_lower_refuted`: any lower continuity asks for fewer knots instead of more
* `C85_standstill_refuted`: a stop at position 1 is stored as position 2
* `C85_test_negative_refuted`: for a negative sum the test always passes
* `C85_test_zero_refuted`: equal values pass except for zero
* `C86_obstacle_shutdown_refuted`: the avoid flag of an obstacle cancels the shutdown condition of its constraint
* `C87_columns_refuted`: of a shared variable with two columns only the first is shifted
* `C89_default_length_refuted`: without a trajectory length every shifted prediction reads past the end
* `C89_state_ode_refuted`: for an ode that depends on the state it does not: every step starts from the initial state
* `C89_varying_input_refuted`: Exported prediction
* `C90_local_rounding_refuted`: other knot intervals: right after a shift the local time can be almost a whole interval
* `C90_long_update_refuted`: an update time of two knot intervals: one shift for two intervals
* `C90_retry_refuted`: with a prediction shift a failed update moves the time
* `C91_two_steps_back_refuted`: stepping back twice does not go back twice in time
* `C91_z_late_refuted`: afterwards they use the time of the next update
* `C92_move_only_refuted`: a path that only moves repeats the end of the last arc, wherever it moves to
* `C92_path_first_refuted`: a figure that starts with a path is not converted
* `C92_path_not_moved_refuted`: the translation of the figure moves the lines but not the paths
* `C92_polycubic_refuted`: several cubics after one letter: all but the last are skipped
* `C92_reversed_line_refuted`: a line given from its second end is not cut
* `C92_two_halves_refuted`: a circle of two halves is refused
* `C93_accepted_refuted`: circles only smaller than its width
* `C93_clicks_refuted`: a right click in the middle of an obstacle is not in the obstacle
* `C93_grid_refuted`: rows and columns are exchanged
* `C93_margin_refuted`: but they can be nearer to the border than the margin
* `C93_select_rect_refuted`: Graphical interface and environment
* `C94_line_refuted`: so that half of the stroke is free
* `C94_no_transform_refuted`: neither can be loaded from a figure without a translation
* `C95_start_refuted`: for other paths the frame can end without the vehicle in it, although its position is a waypoint
* `C96_corner_refuted`: an earlier waypoint without the margin: the new one can be too close to a side
* `C96_move_frame_outside_refuted`: outside by more than the vehicle size it stays outside
* `C96_move_frame_side_refuted`: on the right side it stays on the side
* `C96_none_refuted`: which happens for a path of one point next to an obstacle
* `C96_other_side_refuted`: a last waypoint on the right side is sent to the left side of the frame
* `C97_avoid_refuted`: an obstacle that was not to be avoided is avoided from then on
* `C97_both_refuted`: one that moves without simulation data is in both
* `C97_covering_refuted`: an obstacle that covers the whole frame is missed
* `C97_disc_refuted`: circles also when they only come near a corner
* `C97_fast_refuted`: a fast obstacle is missed between two samples
* `C97_neither_refuted`: an obstacle that stands still but has a velocity in its simulation data is in neither list
* `C97_rotated_refuted`: the corners of a turned rectangle are turned twice
* `C98_return_refuted`: with a goal in the first box and another point outside, neither
* `C99_waypoint_refuted`: the last waypoint of the first frame can fall outside
* `C100_ignored_refuted`: so an obstacle that starts to move in the first one of two frames is never avoided
* `C101_at_goal_refuted`: a vehicle that stands at its goal cannot start either
* `C102_short_refuted`: the time can be twenty times too short for the way along the waypoints at full speed
* `C107_late_refuted`: knots that do not start at 0
* `C107_repeated_refuted`: repeated inner knots
* `C107_short_refuted`: fewer knot intervals than the degree
* `C108_number_refuted`: a constraint on a plain number is ignored
* `C108_stricter_refuted`: the converse fails: values within bounds, coefficients not
* `C109_ends_refuted`: not in the skipped intervals
* `C109_zero_refuted`: skip=[0, 0] drops every coefficient
* `C118_mixed_refuted`: with only one of ideal_prediction and ideal_update set, the next problem is solved from a state in which the vehicle is not
* `C126_first_raises_refuted`: an accepted answer for which the first update raises: a motion time shorter than a sample
* `C127_columns_refuted`: a simulation time for which the signal of the state gets fewer columns than the signal of the time
* `C128_orient_refuted`: HolonomicOrient: the position is guessed likewise, but the spline for the heading is zero whatever the state and the goal are
* `C133_reset_refuted`: without a guess it always raises
* `C134_default_refuted`: so the guess of the vehicle itself is not used when the variables are defined
* `C135_heading_refuted`: AGV, Bicycle, Dubins: with a goal heading further than the tolerance outside (-pi, pi) the vehicle never counts as arrived, whatever its splines are
* `C135_trailer_refuted`: the same for the goal heading of a trailer
* `C140_run_refuted`: the reported objective is not that of the last run: it is not reset between runs
* `C141_jump_refuted`: with ideal updates a pause takes the vehicle in one sample to where its last plan ends
* `C147_plate_refuted`: a plate made of a beam is drawn beyond what is kept free for it
* `C149_agv_long_refuted`: a longer one is not: the rectangle does not depend on the length
* `C149_agv_steered_refuted`: nor is one of the default length drawn as a car with steered wheels
* `C149_bicycle_hits_refuted`: so that it can be drawn over an obstacle although all constraints hold with a positive margin
* `C149_bicycle_outside_refuted`: but not within the disc that is kept free for it
* `C150_lead_refuted`: so the vehicle in front can be drawn over an obstacle although all constraints hold with a positive margin
* `C151_turned_refuted`: the orientation of a room is drawn, but not in the constraints
* `C155_label_refuted`: the hyperplanes of a vehicle whose label contains seg cannot be shifted
* `C155_ten_refuted`: shifting segment 1 also shifts segment 10
* `C157_slack_refuted`: the slack splines are not taken along: the guess no longer meets the constraints it met
* `C158_start_refuted`: the new guess does not start where the old one is after the update time
* `C158_twice_refuted`: with a start time the guess is not taken along at first: the start time is subtracted twice
* `C159_infeasible_refuted`: a point that is not feasible replaces the guess all the same
* `C171_end_speed_refuted`: refuted: the real end velocity is not fixed at all; for every speed there is a solved problem whose planned velocity at the end is zero and whose real one is that speed
* `C175_slack_refuted`: the names of the slacks do not tell shape and hyperplane apart
* `C176_two_refuted`: two vehicles in a circular formation are not held together
* `C180_zero_refuted`: although the denominator stays positive, a zero among its coefficients makes the result undefined
* `C181_kinks_refuted`: with inner knots it is wrong: the hat function with all weights one
* `C182_weights_refuted`: but changes it otherwise
* `C183_minus_refuted`: which is the wrong sign
* `C184_order_refuted`: with different bases it is wrong
* `C184_raises_refuted`: or raises
* `C185_jerk_refuted`: the jerk is not continuous from one segment to the next
* `C186_twice_refuted`: a segment of a whole number of samples records its end twice, and the columns are not drawn at their times
* `C187_line_refuted`: for two inputs above each other it divides by zero
* `C187_speed_refuted`: the speeds do not fit together, and the clock runs ahead of the log
* `C188_survives_refuted`: but not with a successful retry: after 20 failures and a success one more failure raises
* `C189_early_refuted`: with two segments at a time it may stop in the first block of three
* `C189_skip_refuted`: with one segment at a time it may pass over the first block
* `C190_label_refuted`: a child whose label contains dd is taken for a neighbour and raises
* `C191_gap_refuted`: indices with a gap: other coefficients are transformed
* `C191_many_refuted`: a variable with more splines than coefficients per spline: the last ones are not transformed
* `C192_off_centre_refuted`: a perfect formation around a point aside has an error
* `C194_delay_refuted`: the delay and the flags do not reach the vehicles
* `C195_made_refuted`: after a solution with one segment, no guess can be made for one segment when several may be combined
* `C196_circle_refuted`: for a full circle all these points are the start
* `C196_height_refuted`: so the height of a segment is lost
* `C197_sign_refuted`: the check does not see negative values
* `C197_y_refuted`: with a lower limit in y the check raises
* `C197_z_refuted`: the speed in z is not looked at
* `C198_rest_refuted`: the vehicle need not end at rest, and the other components need not end at their conditions
* `C200_default_refuted`: with the default argument of step, recorded times go back
* `C202_zero_refuted`: so clock and recorded times do not agree after every run_once
* `C203_copy_refuted`: a copy of an environment with a filled room avoids obstacles of the original
* `C203_count_refuted`: filling a room does not count its obstacles
* `C203_replace_refuted`: obstacles of an earlier filling stay
* `C204_doubles_refuted`: with the doubles 0.3 and 0.1 there are more times than states and stored plans
* `C205_missing_refuted`: too few conditions are not noticed
* `C206_fleets_refuted`: of several fleets only the first one is used
* `C207_long_refuted`: a c line with several curves gives other points: only the first six numbers are made absolute
* `C207_mixed_refuted`: a path that mixes numbers with and without a point can give other points: the sums are cut to integers
* `C209_groups_refuted`: a path of a second group is not found
* `C210_dir_refuted`: with a directory that starts with a dot the labelled file is in another directory
* `C210_name_refuted`: nor with an underscore in the name
* `C210_namespace_refuted`: with an underscore in the namespace rmv_label does not give the name back
* `C211_between_refuted`: it does when a key stands as text between two places
* `C212_comment_refuted`: with a comment behind the label the last word of the comment is changed and the guard is not

## Findings made while reading, not proved

Observations on the source text that no theorem covers.  They are not part of
any claim.

* Collision constraints: `environment.define_collision_constraints` calls
  `obstacle.define_collision_constraints` with the growing hyperplane list inside
  the loop, so earlier constraints are added again;
  `define_intervehicle_collision_constraints` adds the room constraints a second
  time and reuses the names of the slack variables.
* Splines: with knots finer than the 501-point grid the collocation matrix of a
  basis transformation can be singular (`LinAlgError`).
* Scheduler: mutable default dictionary for the options; changes of obstacles in
  earlier frames never reach the local problem; `create_next_frame` of shift
  frames is called with one argument too many.
* Deployer: the vehicle keeps `result_splines`, so a second run starts from the
  old end state; `self.cnt` is unset if the first solve fails; after a failed
  solve `inputs_end` is not restored; the slope test divides by zero for equal x
  values; a failure in the first segment reads `input_traj[:, -2]` out of range;
  `update_time=0.` means the default.
* Svg/gui: `tree.getchildren` is gone since Python 3.9; `map(eval, ...)[0]` raises
  a swallowed TypeError in Python 3, so the transform stays `[0, 0]` and
  `pos += [0, 0]` makes a list of length four; `is 'mm'` is never true;
  `polyline` contains `line`; numbers with exponents are split wrongly.
* Movie: `extra_axis_parameters={[...]}` raises TypeError.
* Export: the else branch of `getVariableDict` does not compile; several C++
  functions lack a return; constants of spline transformations are keyed by the
  upper-case name, so children share the last matrix; `.replace('t',
  'current_time')` in the shutdown text; default `trajectory_length` 0 with
  `predict_shift > 0` reads out of range.
* Obstacles: `Obstacle2D.draw` returns `[]` where a pair is unpacked; the
  dictionary `initial` is changed in place; `Environment.copy` shares the room
  dictionaries; `fill_room` does not update `n_obs`.
* Vehicles: `amax` is read but unused by Dubins; `Trailer` uses
  `lead_veh.signals`, which is only set while drawing, and `lead_veh=None` raises
  AttributeError; `SimpleQuadrotor3D` uses `self.T`; terminal constraints of
  Quadrotor and Tool lack the parameter `horizon_time`;
  `HolonomicOrient.get_init_spline_value` leaves the orientation at zero.
* FreeEndPoint2point: `free_ind` is always `[0, 1]`; stale loop variables in
  `define_terminal_constraints`.
* G-code: `pose = block.center; pose.extend(...)` changes the block; files are
  read in binary mode (TypeError in Python 3); `Ring` with a full circle uses the
  undefined name `linspace`.
* Fleet: configuration dictionaries whose keys are not 0..k-1 raise IndexError;
  array configurations of length other than 2 are not stored; the central soft
  formation reuses one slack name.
* Dual methods: `sym` is rebound at admm.py 337; `dep_A` is computed from
  `symvar(b)`; `distributedproblem.predict` passes the delay by position.
* Optilayer: `transform_primal_splines` reads one digit of `segN`; the duplicate
  check of `add_to_dict` never fires; `exec` cannot bind `shutdown_fun` in
  Python 3.
* Free end time: a first motion time below the sample time raises in the first
  update (C126); the state can get one column fewer than the time (C127); with
  terminal constraints on all derivatives every plan pauses for its last knot
  interval (C124).
* Guesses: `define_splines` calls `get_init_spline_values`, a name that no class
  has, so the variables start at zero (C134); `reset_init_guess()` always raises,
  so `solve` raises when the solver runs out of time (C133); only Holonomic takes
  the keyword `subgoals` that multi-frame problems pass (C131); a trailer needs a
  basis of the same size as the vehicle that pulls it (C130); goal headings
  outside (-pi, pi) are never reached (C135).
* Several runs (Mission_Model): the objective of a problem is not reset between
  runs (C140_run_refuted); with ideal updates sleeping takes the vehicle in one
  sample to the end of its last plan (C141_jump_refuted); the clock is one
  sample behind the log after a run, so the next column repeats a time stamp
  (C142); the next run assumes velocity zero, whatever the last velocity was
  (Vehicle.predict at the start time; C136). By reading only: sleeping before
  the first run raises, sleeping for 0 seconds advances the clock by an update.
* Drawings (Draw_Model): the vehicle in front of a trailer has no collision
  constraints (C150_unseen, C150_lead_refuted); a bicycle and a quadrotor are
  drawn beyond the disc that is kept free for them (C149); the rectangle of an
  AGV does not depend on its length (C149_agv_long_refuted); the orientation of
  a room is drawn but not used in constraints (C151_turned_refuted); vehicles
  with several shapes raise (C151_shapes); drawing raises when a plane obstacle
  has the option draw switched off (C151_environment); a plate made of a beam is
  drawn beyond its checkpoints (C147_plate_refuted). The bar of a trailer with
  the shape Square starts at 0.001 instead of half the side (bar_start).
* The store of the variables and the warm start (Store_Model): segment 1 also
  means segment 10 and higher (C155_ten_refuted); a label that contains "seg"
  makes the shift of hyperplanes raise (C155_label_refuted); the splines of the
  soft constraints are not taken along (C157_slack_refuted); the guess with free
  motion time starts at the fraction update/(T - update) instead of update/T
  (C158_start_refuted); the start time is subtracted twice (C158_twice_refuted);
  points of failed solves replace the guess (C159_infeasible_refuted). By reading
  only: transform_dual_splines and set_dual_variables of a child use the key
  [label, name] where the structure has the key name_label; get_constraint and
  get_objective call functions of an old casadi; symbols of define_substitute are
  never replaced; the names of hyperplanes str(k)+str(l) coincide for (1, 11) and
  (11, 1); shift_spline assumes equidistant knots.
* Whole trips (Trip_Model): by default Quadrotor3D puts the terminal velocity
  constraint on the velocity made of the substitute variables ddx, ddy, ddz, of
  which only the twofold integral is kept within 1/1000 of the real position; so
  the real velocity at the end is not bounded by the constraints
  (C171_end_speed_refuted, quadrotor3d.py 119-133 and 158-175).
* Teams (Team_Model): a circular central formation of two vehicles has no
  constraint at all (C176_two_refuted, formation_central.py 56-58: both entries
  are removed). The slack of a hyperplane is called eps_ with the numbers of the
  shape and of the hyperplane written one after the other: ambiguous
  (C175_slack_refuted), and without segment or kind, so the hyperplanes to
  obstacles and to other vehicles and those of all segments share their slacks
  (vehicle.py 138, 212). All couples of a soft formation share one slack per axis
  (formation_central.py 72). By reading only: MultiFrameProblem calls
  define_intervehicle_collision_constraints without horizon times and raises
  (multiframeproblem.py 74-75); fill_room does not update n_obs; room limits in
  space ignore the radius (vehicle.py 222-232).
* Rational and tensor product splines (Nurbs_Model): Nurbs.derivative is wrong
  as soon as the basis has an inner knot: its numerator is one degree of
  smoothness rougher than the basis of the squared denominator
  (C181_kinks_refuted, spline.py 541-548). Nurbs.insert_knots transforms the
  coefficients without their weights (C182_weights_refuted, spline.py 560-562). A
  quotient is nan everywhere when a coefficient of its denominator is zero
  (C180_zero_refuted, spline.py 461). TensorBSpline: __rsub__ is __sub__
  (C183_minus_refuted, spline.py 634); the integral contracts the axes in the
  order last, first, second, ... (C184_order_refuted, C184_raises_refuted,
  spline.py 677-679); __mul__ in more than two variables returns an exception
  object instead of raising it (spline.py 639). By reading only: Python 3 never
  calls __div__, so the operator / raises for splines, and Nurbs.__mul__ and
  Nurbs.__add__, which use it, raise too; Nurbs.__add__ with anything but a Nurbs
  returns None; derivative(0) of a Nurbs never ends; in two variables integral
  multiplies cvxopt matrices with the coefficients, which fails for arrays.
- Machining per segment: the jerk jumps where segments meet (C185_jerk_refuted,
  tool.py 128-146); a segment whose motion time is a whole number of samples
  records its end twice, and the plots spread the columns evenly over the time
  (C186_twice_refuted, deployer.py 128-158). After a failed solution inputs_end is
  not set back, so the retry starts with the end velocity of the failed segment,
  and the local current_time runs on (C187_speed_refuted, deployer.py 115-124,
  196-225); the perturbed input divides by zero when the last two inputs have the
  same first coordinate (C187_line_refuted, deployer.py 213). The count of the
  retries survives a successful retry (C188_survives_refuted), and a failure of the
  first pass raises, since there are not two columns yet (C188_first). With
  n_segments > 1 the run stops at standstill at the goal with blocks left, since
  next_segment is never set (C189_early_refuted, deployer.py 172-174); the first
  block is passed over when the start lies in the second (C189_skip_refuted). By
  reading only: a breakpoint of the debugger is left in (deployer.py 193);
  Vehicle.predict with an initial dinput raises for every vehicle but the tool.
- Distributed problems: the transformation of shared splines takes the slice
  l*len(basis) - ind[0], which is wrong for indices with a gap
  (C191_gap_refuted, dualmethod.py 173), and looks at len(basis) splines only,
  whatever their number (C191_many_refuted, dualmethod.py 169). Whether a
  dictionary is nested is told by 'dd' or 'admm' in its first label
  (C190_label_refuted, dualmethod.py 109); empty couplings raise. The formation
  error is not zero for a perfect formation whose configuration is not centred
  (C192_off_centre_refuted, formation.py 89-98). DistributedProblem.predict passes
  the delay in the place of the inputs, so the delay and the enforce flags are
  lost (C194_delay_refuted, distributedproblem.py 196-200); with fewer states
  than problems the other vehicles do not predict. By reading only:
  DistributedProblem.simulate reads the option horizon_time, which free end time
  problems do not have; the results of _transform_spline are discarded in admm.py
  87-88, 144-145, 162-163 and 295-296; ADMM._check_for_lineq reuses the name sym
  for two loops and tests the dependence of A on b.
- Initial guesses of the GCode scheduler: after a solution with one segment,
  get_init_guess for one segment raises when n_segments was larger at the start
  (C195_made_refuted, gcodeschedulerproblem.py 790-794). The starting points for a
  full circle all coincide (C196_circle_refuted, 1081-1091) and the z column is
  always zero (C196_height_refuted, 1114). The motion time ignores z where the
  limits in x are not zero (C197_z_refuted, 1160-1183), uses the limits of x for y,
  so that the check raises when those of y are lower (C197_y_refuted), and the
  check compares values without abs (C197_sign_refuted, 849-854).
- Problems with a free end: the default free_ind is range(2) for every vehicle,
  since the length of the pair of lists is taken (C198_default, point2point.py
  391-392), and the constraints for the derivatives repeat the end position of the
  last component, so the vehicle need not end at rest (C198_rest_refuted,
  point2point.py 416-417).
- Simulator.step records a whole update but advances the clock by its argument,
  0.1 by default; with longer update times the recorded times go back at the next
  step and overlap (C200_default_refuted, simulator.py 64-71).  For problems that
  are neither FixedTPoint2point nor FreeTPoint2point, step raises since motion_time
  is not assigned (simulator.py 78-84).
- A hard stop at time 0 leaves the signals as they are, but the clock advances by
  one update, since an update time of 0 is taken as not given (C202_zero_refuted,
  simulator.py 106).  The last column keeps the planned dinput (C202_hard).
- fill_room neither counts the obstacles it adds (C203_count_refuted) nor removes
  those that the room had before, although the comment says that they are replaced
  (C203_replace_refuted, environment.py 93-100).  copy makes new obstacles but
  shares the rooms, so a filled room of the copy refers to obstacles of the original
  (C203_copy_refuted, environment.py 67-70).
- Vehicle.simulate rounds the number of samples for the signals (vehicle.py 365) but
  truncates it for the storages and for integrate_ode (vehicle.py 396, 415).  With an
  update time of 0.3 and samples of 0.1, in double precision, every update records
  three times, inputs and splines but two states, and stores two plans, so states and
  times drift apart (C204_doubles_refuted).
- Fleet setters use zip: too few conditions leave vehicles without one, without an
  error (C205_missing_refuted, fleet.py 103-119).  A list of several fleets is
  reduced to the first (C206_fleets_refuted, fleet.py 31-32).
- Reading svg paths (svg_reader.py 62-77): a comma or space before a minus sign, as in
  M5,-2, gives an empty token and eval of it a SyntaxError (C208_minus).  A c line of
  integers after a point with decimals is stored in an integer array, so the sums
  are cut to integers (C207_mixed_refuted).  Only the first six numbers of a c line
  are made absolute (C207_long_refuted).  Paths outside the first group are not
  found (C209_groups_refuted, lines 41-47).
- Exported file names (export.py 91-101): a directory with a dot, such as ./export or
  /home/x.y, makes add_label drop what stands before it, so files are copied to
  another place (C210_dots, C210_dir_refuted).  With an underscore in the namespace
  rmv_label, and thus change_includes, works on wrong names
  (C210_namespace_refuted).
- Include guards (export.py 154-156): find gives -1 for a header without #ifndef, for
  example one with #pragma once; the label is then empty and replace puts the
  namespace around every character (C212_missing).  The headers of the repository
  all have a guard.


## What is modelled and what is not

Per source file the functions that some definition cites, and those no definition cites (nothing is claimed about the latter).  A cited function is modelled in the part its citation names; drawing, printing, time measuring and file access are left out everywhere.

* `omgtools/problems/admm.py` (16 of 24)
  - modelled: ADMM.init, ADMM.construct_upd_x, ADMM.construct_upd_z, ADMM.construct_upd_l, ADMM.construct_upd_res, ADMM.init_var_admm, ADMM.update_x, ADMM.set_parameters_upd_z, ADMM.update_z, ADMM.update_l, ADMM.communicate, ADMM.init_step, ADMM.get_residuals, ADMM.accelerate, ADMMProblem.dual_update, ADMMProblem.update_plot
  - not modelled: ADMM.__init__, ADMM._check_for_lineq, ADMM.set_parameters, ADMMProblem.__init__, ADMMProblem.set_default_options, ADMMProblem.reinitialize, ADMMProblem.get_stacked_x_var_it, ADMMProblem.init_plot
* `omgtools/vehicles/agv.py` (10 of 16)
  - modelled: AGV.__init__, AGV.define_trajectory_constraints, AGV.get_initial_constraints, AGV.get_terminal_constraints, AGV.get_init_spline_value, AGV.set_parameters, AGV.define_collision_constraints, AGV.splines2signals, AGV.ode, AGV.draw
  - not modelled: AGV.set_default_options, AGV.init, AGV.set_initial_conditions, AGV.set_terminal_conditions, AGV.check_terminal_conditions, AGV.state2pose
* `omgtools/vehicles/bicycle.py` (11 of 17)
  - modelled: Bicycle.__init__, Bicycle.define_trajectory_constraints, Bicycle.get_initial_constraints, Bicycle.get_terminal_constraints, Bicycle.get_init_spline_value, Bicycle.set_parameters, Bicycle.define_collision_constraints, Bicycle.integrate_once, Bicycle.splines2signals, Bicycle.ode, Bicycle.draw
  - not modelled: Bicycle.set_default_options, Bicycle.init, Bicycle.set_initial_conditions, Bicycle.set_terminal_conditions, Bicycle.check_terminal_conditions, Bicycle.state2pose
* `omgtools/execution/deployer.py` (8 of 9)
  - modelled: Deployer.__init__, Deployer.set_problem, Deployer.reset, Deployer.update, Deployer.update_segment, Deployer.check_results, Deployer.update_plot, Deployer.save_results
  - not modelled: Deployer.init_plot
* `omgtools/problems/distributedproblem.py` (7 of 19)
  - modelled: DistributedProblem.init, DistributedProblem.separate_per_build, DistributedProblem.interprete_constraints, DistributedProblem._sort_dict, DistributedProblem.predict, DistributedProblem.simulate, DistributedProblem.stop_criterium
  - not modelled: get_dependency, DistributedProblem.__init__, DistributedProblem.set_default_options, DistributedProblem.set_options, DistributedProblem.construct, DistributedProblem._compose_dictionary, DistributedProblem.initialize, DistributedProblem.store, DistributedProblem.sleep, DistributedProblem.final, DistributedProblem.compute_objective, DistributedProblem.solve
* `omgtools/problems/dualdecomposition.py` (6 of 17)
  - modelled: DDUpdater.construct_upd_l, DDUpdater.update_l, DDUpdater.communicate, DDUpdater.init_step, DDUpdater.get_residuals, DDProblem.dual_update
  - not modelled: DDUpdater.__init__, DDUpdater.init, DDUpdater.construct_upd_xz, DDUpdater.init_var_dd, DDUpdater.set_parameters, DDUpdater.update_xz, DDProblem.__init__, DDProblem.reinitialize, DDProblem.get_stacked_x_var_it, DDProblem.init_plot, DDProblem.update_plot
* `omgtools/problems/dualmethod.py` (15 of 21)
  - modelled: _create_struct_from_dict, DualUpdater.__init__, DualUpdater._struct2dict, DualUpdater._dict2struct, DualUpdater._get_x_variables, DualUpdater._transform_spline, DualProblem.__init__, DualProblem.set_default_options, DualProblem.initialize, DualProblem.solve, DualProblem.get_stacked_x, DualProblem.get_objectives, DualProblem.get_stacked_x_var_it, DualProblem.dual_update, DualProblem.stop_criterium
  - not modelled: DualUpdater.set_default_options, DualUpdater.init, DualUpdater.set_parameters, DualUpdater.communicate, DualUpdater.get_residuals, DualProblem.final
* `omgtools/vehicles/dubins.py` (13 of 21)
  - modelled: Dubins.__init__, Dubins.define_trajectory_constraints, Dubins.get_fleet_center, Dubins.get_initial_constraints, Dubins.get_terminal_constraints, Dubins.get_init_spline_value, Dubins.set_parameters, Dubins.define_collision_constraints, Dubins.integrate_once, Dubins.splines2signals, Dubins.ode, Dubins.draw, Dubins.get_pos_splines
  - not modelled: Dubins.set_default_options, Dubins.init, Dubins.set_initial_conditions, Dubins.set_terminal_conditions, Dubins.check_terminal_conditions, Dubins.state2pose, Dubins.update_signals, Dubins.update_prediction
* `omgtools/environment/environment.py` (9 of 12)
  - modelled: Environment.__init__, Environment.copy, Environment.add_obstacle, Environment.fill_room, Environment.define_collision_constraints, Environment.define_intervehicle_collision_constraints, Environment.simulate, Environment.draw, Environment.get_canvas_limits
  - not modelled: Environment.init, Environment.init_plot, Environment.update_plot
* `omgtools/export/export.py` (13 of 27)
  - modelled: Export.add_label, Export.rmv_label, Export.set_includeguards, Export.fill_template, Export._create_spline_tf, Export._create_lb_ub, Export._create_getParameterVector, Export._create_getVariableVector, Export._create_getVariableDict, Export._create_updateBounds, Export._create_initSplines, Export._create_transformSplines, Export._create_fillParameterDict
  - not modelled: search_casadi, Export.__init__, Export.set_default_options, Export.set_options, Export.export, Export.change_includes, Export.set_namespace, Export.copy_files, Export.export_casadi_problems, Export.get_make_options, Export.create_constants, Export.create_types, Export.create_functions, Export._create_generateSubstituteFunctions
* `omgtools/export/export_admm.py` (2 of 9)
  - modelled: ExportADMM._create_retrieveSharedVariables, ExportADMM._create_transformSharedSplines
  - not modelled: ExportADMM.__init__, ExportADMM.set_default_options, ExportADMM.export_casadi_problems, ExportADMM.create_constants, ExportADMM._create_spline_tf, ExportADMM.create_functions, ExportADMM._create_initSplines
* `omgtools/export/export_formation.py` (0 of 2)
  - not modelled: ExportFormation.__init__, ExportFormation.set_default_options
* `omgtools/export/export_p2p.py` (0 of 3)
  - not modelled: ExportP2P.__init__, ExportP2P.set_default_options, ExportP2P.export_casadi_problems
* `omgtools/export/export_rendezvous.py` (0 of 2)
  - not modelled: ExportRendezVous.__init__, ExportRendezVous.set_default_options
* `omgtools/vehicles/fleet.py` (12 of 15)
  - modelled: get_fleet_vehicles, Fleet.__init__, Fleet.get_neighbors, Fleet.set_neighbors, Fleet.set_configuration, Fleet.set_rel_pos_c, Fleet.get_rel_config, Fleet.set_initial_conditions, Fleet.set_terminal_conditions, Fleet.overrule_state, Fleet.overrule_input, Fleet.sort_vehicles
  - not modelled: Fleet.reinit_splines, Fleet.init_plot, Fleet.update_plot
* `omgtools/problems/formation.py` (2 of 6)
  - modelled: FormationPoint2point.construct, FormationPoint2point.get_interaction_error
  - not modelled: FormationPoint2point.__init__, FormationPoint2point.set_parameters, FormationPoint2point.final, FormationPoint2point.export
* `omgtools/problems/formation_central.py` (1 of 5)
  - modelled: FormationPoint2pointCentral.construct
  - not modelled: FormationPoint2pointCentral.__init__, FormationPoint2pointCentral.set_default_options, FormationPoint2pointCentral.update, FormationPoint2pointCentral.set_parameters
* `omgtools/problems/formation_dualdec.py` (0 of 5)
  - not modelled: FormationPoint2pointDualDecomposition.__init__, FormationPoint2pointDualDecomposition.construct, FormationPoint2pointDualDecomposition.set_parameters, FormationPoint2pointDualDecomposition.get_interaction_error, FormationPoint2pointDualDecomposition.final
* `omgtools/environment/frame.py` (16 of 16)
  - modelled: Frame.__init__, Frame.get_stationary_obstacles, Frame.get_moving_obstacles, Frame.make_border, Frame.distance_to_border, Frame.make_last_waypoint_reachable, Frame.point_in_frame, Frame.find_closest_waypoint, ShiftFrame.__init__, ShiftFrame.move_frame, CorridorFrame.__init__, CorridorFrame.create_corridor_base_frame, CorridorFrame.update_frame_with_waypoint, CorridorFrame.scale_up_frame, CorridorFrame.create_l_shape, CorridorFrame.find_intersection_line_segment_frame
* `omgtools/gui/gcode_block.py` (7 of 11)
  - modelled: GCodeBlock.__init__, G02.__init__, G02.get_coordinates, G03.__init__, G03.get_coordinates, distance_between, generate_gcodeblock
  - not modelled: G00.__init__, G00.get_coordinates, G01.__init__, G01.get_coordinates
* `omgtools/gui/gcode_reader.py` (6 of 11)
  - modelled: GCodeReader.__init__, GCodeReader.convert, GCodeReader.read, GCodeReader.create_blocks, GCodeReader.get_block_division, GCodeReader.get_connections
  - not modelled: GCodeReader.reset, GCodeReader.load_file, GCodeReader.get_gcode, GCodeReader.plot_gcode, GCodeReader.run
* `omgtools/problems/gcodeproblem.py` (7 of 15)
  - modelled: GCodeProblem.construct, GCodeProblem.define_init_constraints, GCodeProblem.define_terminal_constraints, GCodeProblem.define_connection_constraints, GCodeProblem.store, GCodeProblem.stop_criterium, GCodeProblem.init_step
  - not modelled: GCodeProblem.__init__, GCodeProblem.set_default_options, GCodeProblem.set_options, GCodeProblem.set_parameters, GCodeProblem.reset_init_time, GCodeProblem.final, GCodeProblem.compute_partial_objective, GCodeProblem.compute_objective
* `omgtools/problems/gcodeschedulerproblem.py` (15 of 25)
  - modelled: GCodeSchedulerProblem.__init__, GCodeSchedulerProblem.reinitialize, GCodeSchedulerProblem.solve, GCodeSchedulerProblem.stop_criterium, GCodeSchedulerProblem.get_environment, GCodeSchedulerProblem.split_ring_segment, GCodeSchedulerProblem.check_segments, GCodeSchedulerProblem.update_segments, GCodeSchedulerProblem.point_in_extended_shape, GCodeSchedulerProblem.generate_problem, GCodeSchedulerProblem.get_init_guess, GCodeSchedulerProblem.get_init_guess_new_segment, GCodeSchedulerProblem.get_init_guess_bangbang_jerk, GCodeSchedulerProblem.get_init_guess_ring, GCodeSchedulerProblem.get_init_guess_motion_time
  - not modelled: GCodeSchedulerProblem.init, GCodeSchedulerProblem.initialize, GCodeSchedulerProblem.store, GCodeSchedulerProblem._add_to_memory, GCodeSchedulerProblem.final, GCodeSchedulerProblem.export, GCodeSchedulerProblem.init_plot, GCodeSchedulerProblem.update_plot, GCodeSchedulerProblem.get_init_guess_combined_segment, GCodeSchedulerProblem.get_init_guess_total_motion_time
* `omgtools/basics/geometry.py` (11 of 11)
  - modelled: distance_between_points, distance_to_rectangle, distance_to_line, order_is_ccw, intersect_line_segments, intersect_lines, point_in_polyhedron, circle_polyhedron_intersection, point_in_rectangle, rectangles_overlap, compute_rectangle_overlap_center
* `omgtools/problems/globalplanner.py` (28 of 35)
  - modelled: AStarPlanner.__init__, AStarPlanner.set_start, AStarPlanner.set_goal, AStarPlanner.calculate_g_cost, AStarPlanner.calculate_h_cost, AStarPlanner.calculate_f_cost, AStarPlanner.get_lowest_f_cost_node, AStarPlanner.remove_from_open_list, AStarPlanner.create_node, AStarPlanner.get_path, AStarPlanner.closed_list_to_path, AStarPlanner.convert_node_to_waypoint, Node.__init__, Node.get_parent, Node.get_pos, Node.get_g_cost, Node.get_h_cost, Node.get_f_cost, Grid.__init__, Grid.in_bounds, Grid.block, Grid.free, Grid.is_accessible, Grid.move_to_gridpoint, Grid.distance_between_cells, Grid.get_neighbors, Grid.get_occupied_cells, Grid.draw
  - not modelled: GlobalPlanner.__init__, GlobalPlanner.get_path, GlobalPlanner.move_point_to_grid, QuadmapPlanner.__init__, QuadmapPlanner.get_path, AStarPlanner.plot_path, SquareGrid.__init__
* `omgtools/gui/gui.py` (15 of 20)
  - modelled: EnvironmentGUI.__init__, EnvironmentGUI.reinitialize, EnvironmentGUI.draw_grid, EnvironmentGUI.make_obstacle, EnvironmentGUI.remove_obstacle, EnvironmentGUI.move_obstacle, EnvironmentGUI.snap_to_grid, EnvironmentGUI.get_position, EnvironmentGUI.build_environment, EnvironmentGUI.add_obstacle, EnvironmentGUI.load_environment, EnvironmentGUI.get_clicked_positions, EnvironmentGUI._create_circle, EnvironmentGUI.pixel_to_world, EnvironmentGUI.world_to_pixel
  - not modelled: EnvironmentGUI.save_environment, EnvironmentGUI.load_svg, EnvironmentGUI.get_environment, popupWindow.__init__, popupWindow.cleanup
* `omgtools/vehicles/holonomic.py` (13 of 14)
  - modelled: Holonomic.__init__, Holonomic.define_trajectory_constraints, Holonomic.get_initial_constraints, Holonomic.get_terminal_constraints, Holonomic.set_initial_conditions, Holonomic.set_terminal_conditions, Holonomic.get_init_spline_value, Holonomic.check_terminal_conditions, Holonomic.set_parameters, Holonomic.define_collision_constraints, Holonomic.splines2signals, Holonomic.state2pose, Holonomic.ode
  - not modelled: Holonomic.set_default_options
* `omgtools/vehicles/holonomic1d.py` (6 of 14)
  - modelled: Holonomic1D.__init__, Holonomic1D.define_trajectory_constraints, Holonomic1D.get_initial_constraints, Holonomic1D.get_terminal_constraints, Holonomic1D.get_init_spline_value, Holonomic1D.splines2signals
  - not modelled: Holonomic1D.init, Holonomic1D.set_initial_conditions, Holonomic1D.set_terminal_conditions, Holonomic1D.check_terminal_conditions, Holonomic1D.set_parameters, Holonomic1D.define_collision_constraints, Holonomic1D.state2pose, Holonomic1D.ode
* `omgtools/vehicles/holonomic3d.py` (10 of 15)
  - modelled: Holonomic3D.__init__, Holonomic3D.define_trajectory_constraints, Holonomic3D.get_initial_constraints, Holonomic3D.get_terminal_constraints, Holonomic3D.set_initial_conditions, Holonomic3D.get_init_spline_value, Holonomic3D.set_parameters, Holonomic3D.define_collision_constraints, Holonomic3D.splines2signals, Holonomic3D.state2pose
  - not modelled: Holonomic3D.set_default_options, Holonomic3D.init, Holonomic3D.set_terminal_conditions, Holonomic3D.check_terminal_conditions, Holonomic3D.ode
* `omgtools/vehicles/holonomicorient.py` (8 of 15)
  - modelled: HolonomicOrient.__init__, HolonomicOrient.define_trajectory_constraints, HolonomicOrient.get_initial_constraints, HolonomicOrient.get_terminal_constraints, HolonomicOrient.get_init_spline_value, HolonomicOrient.set_parameters, HolonomicOrient.define_collision_constraints, HolonomicOrient.splines2signals
  - not modelled: HolonomicOrient.set_default_options, HolonomicOrient.init, HolonomicOrient.set_initial_conditions, HolonomicOrient.set_terminal_conditions, HolonomicOrient.check_terminal_conditions, HolonomicOrient.state2pose, HolonomicOrient.ode
* `omgtools/problems/multiframeproblem.py` (8 of 17)
  - modelled: MultiFrameProblem.construct, MultiFrameProblem.define_init_constraints, MultiFrameProblem.define_terminal_constraints, MultiFrameProblem.define_connection_constraints, MultiFrameProblem.reinitialize, MultiFrameProblem.simulate, MultiFrameProblem.stop_criterium, MultiFrameProblem.init_step
  - not modelled: MultiFrameProblem.__init__, MultiFrameProblem.set_default_options, MultiFrameProblem.set_options, MultiFrameProblem.set_parameters, MultiFrameProblem.store, MultiFrameProblem.reset_init_time, MultiFrameProblem.final, MultiFrameProblem.compute_partial_objective, MultiFrameProblem.compute_objective
* `omgtools/environment/obstacle.py` (16 of 26)
  - modelled: ObstaclexD.__init__, ObstaclexD.init, ObstaclexD.set_parameters, ObstaclexD.set_state, ObstaclexD.prepare_simulation, ObstaclexD._ode, ObstaclexD.ode, ObstaclexD.simulate, ObstaclexD.draw, Obstacle2D.init, Obstacle2D.define_collision_constraints, Obstacle2D.simulate, Obstacle2D.overlaps_with, Obstacle2D.is_outside_of, Obstacle2D.draw, Obstacle3D.define_collision_constraints
  - not modelled: Obstacle.__new__, ObstaclexD.set_default_options, ObstaclexD.set_options, ObstaclexD.define_collision_constraints, Obstacle2D.__init__, Obstacle2D.set_default_options, Obstacle2D.set_parameters, Obstacle2D.set_state, Obstacle2D.prepare_simulation, Obstacle3D.__init__
* `omgtools/basics/optilayer.py` (33 of 50)
  - modelled: OptiFather.__init__, OptiFather.add, OptiFather.add_to_dict, OptiFather.construct_problem, OptiFather.compose_dictionary, OptiFather.translate_symbols, OptiFather.construct_variables, OptiFather.construct_parameters, OptiFather.construct_constraints, OptiFather._substitute_symbols, OptiFather.update_bounds, OptiFather.init_variables, OptiFather.set_variables, OptiFather.set_dual_variables, OptiFather.get_variables, OptiFather.set_parameters, OptiFather.init_transformations, OptiFather.transform_primal_splines, OptiChild.__init__, OptiChild.add_to_dict, OptiChild._add_label, OptiChild._make_label, OptiChild.define_symbol, OptiChild.define_variable, OptiChild.define_parameter, OptiChild.define_spline_symbol, OptiChild.define_spline_variable, OptiChild.define_spline_parameter, OptiChild._define_mx, OptiChild._define_mx_spline, OptiChild.set_value, OptiChild.define_constraint, OptiChild.reset
  - not modelled: evalf, create_nlp, create_function, OptiFather.construct_substitutes, OptiFather.construct_objective, OptiFather.reset, OptiFather._evaluate_symbols, OptiFather.init_parameters, OptiFather.get_dual_variables, OptiFather.get_parameters, OptiFather.get_constraint, OptiFather.get_objective, OptiFather.transform_dual_splines, OptiChild.__str__, OptiChild.define_substitute, OptiChild.define_objective, OptiChild.set_parameters
* `omgtools/execution/plotlayer.py` (3 of 15)
  - modelled: mix_with_white, PlotLayer.plot_movie, PlotLayer.save_movie
  - not modelled: _init_axis_2d, _init_axis_3d, _update_axis_2d, _update_axis_3d, _cleanup_rubbish, PlotLayer.__init__, PlotLayer.set_color_template, PlotLayer.plot, PlotLayer._init_plot, PlotLayer.update_plots, PlotLayer._update_plot, PlotLayer.save_plot
* `omgtools/problems/point2point.py` (25 of 38)
  - modelled: Point2pointProblem.__init__, Point2pointProblem.construct, Point2pointProblem.define_init_constraints, Point2pointProblem.reinitialize, Point2pointProblem.set_init_time, Point2pointProblem.reset_init_time, Point2pointProblem.stop_criterium, FixedTPoint2point.__init__, FixedTPoint2point.define_terminal_constraints, FixedTPoint2point.set_parameters, FixedTPoint2point.init_step, FixedTPoint2point.init_primal_transform, FixedTPoint2point.store, FixedTPoint2point.simulate, FixedTPoint2point.compute_partial_objective, FreeTPoint2point.construct, FreeTPoint2point.define_terminal_constraints, FreeTPoint2point.store, FreeTPoint2point.simulate, FreeTPoint2point.stop_criterium, FreeTPoint2point.init_step, FreeTPoint2point.compute_partial_objective, FreeEndPoint2point.__init__, FreeEndPoint2point.construct, FreeEndPoint2point.define_terminal_constraints
  - not modelled: Point2point.__new__, Point2pointProblem.set_default_options, Point2pointProblem.initialize, Point2pointProblem.final, Point2pointProblem.compute_objective, Point2pointProblem.export, FixedTPoint2point.set_default_options, FixedTPoint2point.construct, FixedTPoint2point.initialize, FixedTPoint2point.compute_objective, FreeTPoint2point.__init__, FreeTPoint2point.set_parameters, FreeTPoint2point.compute_objective
* `omgtools/problems/problem.py` (7 of 23)
  - modelled: Problem.__init__, Problem.solve, Problem.predict, Problem.reset_init_guess, Problem.simulate, Problem.sleep, Problem.init_primal_transform
  - not modelled: Problem.set_default_options, Problem.set_options, Problem.construct, Problem.init, Problem.reinitialize, Problem.init_plot, Problem.update_plot, Problem.init_step, Problem.final, Problem.initialize, Problem.init_dual_transform, Problem.set_parameters, Problem.update, Problem.store, Problem.stop_criterium, Problem.export
* `omgtools/vehicles/quadrotor.py` (11 of 16)
  - modelled: Quadrotor.__init__, Quadrotor.define_trajectory_constraints, Quadrotor.get_initial_constraints, Quadrotor.get_terminal_constraints, Quadrotor.set_initial_conditions, Quadrotor.get_init_spline_value, Quadrotor.set_parameters, Quadrotor.splines2signals, Quadrotor.state2pose, Quadrotor.ode, Quadrotor.draw
  - not modelled: Quadrotor.set_default_options, Quadrotor.init, Quadrotor.set_terminal_conditions, Quadrotor.check_terminal_conditions, Quadrotor.define_collision_constraints
* `omgtools/vehicles/quadrotor3d.py` (13 of 17)
  - modelled: Quadrotor3D.__init__, Quadrotor3D.define_trajectory_constraints, Quadrotor3D.get_initial_constraints, Quadrotor3D.get_terminal_constraints, Quadrotor3D.get_init_spline_value, Quadrotor3D.check_terminal_conditions, Quadrotor3D.set_parameters, Quadrotor3D.define_collision_constraints, Quadrotor3D.integrate_twice, Quadrotor3D.splines2signals, Quadrotor3D.state2pose, Quadrotor3D.ode, Quadrotor3D.draw
  - not modelled: Quadrotor3D.set_default_options, Quadrotor3D.init, Quadrotor3D.set_initial_conditions, Quadrotor3D.set_terminal_conditions
* `omgtools/vehicles/quadrotor3d_simple.py` (10 of 16)
  - modelled: SimpleQuadrotor3D.__init__, SimpleQuadrotor3D.define_trajectory_constraints, SimpleQuadrotor3D.get_initial_constraints, SimpleQuadrotor3D.get_terminal_constraints, SimpleQuadrotor3D.get_init_spline_value, SimpleQuadrotor3D.set_parameters, SimpleQuadrotor3D.splines2signals, SimpleQuadrotor3D.state2pose, SimpleQuadrotor3D.ode, SimpleQuadrotor3D.draw
  - not modelled: SimpleQuadrotor3D.set_default_options, SimpleQuadrotor3D.init, SimpleQuadrotor3D.set_initial_conditions, SimpleQuadrotor3D.set_terminal_conditions, SimpleQuadrotor3D.check_terminal_conditions, SimpleQuadrotor3D.define_collision_constraints
* `omgtools/problems/rendezvous.py` (3 of 5)
  - modelled: RendezVous.construct, RendezVous.set_parameters, RendezVous.stop_criterium
  - not modelled: RendezVous.__init__, RendezVous.export
* `omgtools/problems/schedulerproblem.py` (12 of 21)
  - modelled: SchedulerProblem.__init__, SchedulerProblem.reinitialize, SchedulerProblem.solve, SchedulerProblem.stop_criterium, SchedulerProblem.create_frames, SchedulerProblem.create_next_frame, SchedulerProblem.check_frames, SchedulerProblem.update_frames, SchedulerProblem.get_init_guess, SchedulerProblem.get_init_guess_new_frame, SchedulerProblem.get_init_guess_combined_frame, SchedulerProblem.generate_problem
  - not modelled: SchedulerProblem.init, SchedulerProblem.initialize, SchedulerProblem.store, SchedulerProblem.simulate, SchedulerProblem._add_to_memory, SchedulerProblem.final, SchedulerProblem.export, SchedulerProblem.init_plot, SchedulerProblem.update_plot
* `omgtools/basics/shape.py` (42 of 45)
  - modelled: Shape2D.__init__, Shape2D.rotate, Shape2D.draw, Circle.__init__, Circle.get_surfaces, Circle.get_checkpoints, Circle.get_canvas_limits, Cylinder.__init__, Ring.__init__, Ring.get_surfaces, Polyhedron.__init__, Polyhedron.get_surfaces, Polyhedron.get_checkpoints, Polyhedron.get_canvas_limits, Polyhedron.get_hyperplanes, Beam.__init__, Beam.get_surfaces, RegularPolyhedron.__init__, RegularPolyhedron.get_vertices, Rectangle.__init__, Rectangle.get_vertices, Square.__init__, UFO.__init__, UFO.get_surfaces, Shape3D.__init__, Shape3D.draw, Shape3D.rotate, Sphere.__init__, Sphere.get_surfaces, Sphere.get_checkpoints, Sphere.get_canvas_limits, Polyhedron3D.__init__, Polyhedron3D.get_checkpoints, Polyhedron3D.get_canvas_limits, RegularPrisma.__init__, RegularPrisma.get_vertices, RegularPrisma.get_surfaces, Cuboid.__init__, Cuboid.get_vertices, Cuboid.get_surfaces, Cube.__init__, Plate.__init__
  - not modelled: Shape.__init__, Shape.draw, Ring.get_canvas_limits
* `omgtools/execution/simulator.py` (10 of 11)
  - modelled: Simulator.__init__, Simulator.run, Simulator.step, Simulator.update, Simulator.reset_timing, Simulator.update_timing, Simulator.run_once, Simulator.hard_stop, Simulator.sleep, Simulator.time2index
  - not modelled: Simulator.set_problem
* `omgtools/basics/spline.py` (54 of 65)
  - modelled: memoize, memoize.memodict.__init__, memoize.memodict.__call__, memoize.memodict.__get__, cached_class, cached_class._decorated.__new__, cached_class._decorated.__init__, Basis.__init__, Basis.__len__, Basis._ind, Basis._combine, Basis.__add__, Basis.__mul__, Basis.__pow__, Basis.__eq__, Basis.__hash__, Basis.insert_knots, Basis.greville, Basis.scale, BSplineBasis.eval_basis, BSplineBasis.derivative, BSplineBasis.support, BSplineBasis.pairs, BSplineBasis.pairs.is_valid, BSplineBasis.transform, NurbsBasis.__init__, NurbsBasis.eval_basis, Spline.__init__, Spline.__call__, BSpline.__add__, BSpline.__neg__, BSpline.__sub__, BSpline.__rsub__, BSpline.__mul__, BSpline.__rmul__, BSpline.__pow__, BSpline.__div__, BSpline.derivative, BSpline.insert_knots, BSpline.integral, BSpline.scale, Nurbs.__init__, Nurbs.__mul__, Nurbs.__add__, Nurbs.derivative, Nurbs.insert_knots, TensorBSpline.__init__, TensorBSpline.dims, TensorBSpline.__call__, TensorBSpline.__add__, TensorBSpline.__neg__, TensorBSpline.__sub__, TensorBSpline.__mul__, TensorBSpline.integral
  - not modelled: md5, get_module, csr_matrix_alt.__init__, csr_matrix_alt.dot, Basis.__call__, BSplineBasis.as_poly, TSplineBasis.eval_basis, Spline.__len__, Spline.__eq__, Spline.__hash__, BSpline.roots
* `omgtools/basics/spline_extra.py` (16 of 16)
  - modelled: evalspline, running_integral, definite_integral, shift_spline, extrapolate, extrapolate_T, shift_over_knot, shiftoverknot_T, shift_knot1_fwd, shift_knot1_bwd, shiftfirstknot_T, knot_insertion_T, get_interval_T, crop_spline, concat_splines, sample_splines
* `omgtools/gui/svg_reader.py` (5 of 9)
  - modelled: SVGReader.convert_path_to_points, SVGReader.convert_basic_shapes, SVGReader.convert_lines, SVGReader.compute_transform, SVGReader.get_gcode_description
  - not modelled: SVGReader.__init__, SVGReader.init, SVGReader.reconstruct, SVGReader.build_environment
* `omgtools/vehicles/tool.py` (7 of 13)
  - modelled: Tool.__init__, Tool.define_trajectory_constraints, Tool.get_initial_constraints, Tool.get_terminal_constraints, Tool.set_initial_conditions, Tool.define_collision_constraints, Tool.splines2signals
  - not modelled: Tool.set_default_options, Tool.set_terminal_conditions, Tool.check_terminal_conditions, Tool.set_parameters, Tool.state2pose, Tool.ode
* `omgtools/vehicles/trailer.py` (13 of 16)
  - modelled: Trailer.__init__, Trailer.define_trajectory_constraints, Trailer.get_initial_constraints, Trailer.get_terminal_constraints, Trailer.set_initial_conditions, Trailer.set_terminal_conditions, Trailer.get_init_spline_value, Trailer.check_terminal_conditions, Trailer.set_parameters, Trailer.define_collision_constraints, Trailer.splines2signals, Trailer.ode, Trailer.draw
  - not modelled: Trailer.set_default_options, Trailer.init, Trailer.state2pose
* `omgtools/vehicles/vehicle.py` (17 of 32)
  - modelled: Vehicle.__init__, Vehicle.set_default_options, Vehicle.define_knots, Vehicle.set_init_spline_values, Vehicle.define_splines, Vehicle.define_collision_constraints_2d, Vehicle.define_collision_constraints_3d, Vehicle.get_fleet_center, Vehicle.store, Vehicle.predict, Vehicle.overrule_state, Vehicle.overrule_input, Vehicle.simulate, Vehicle.integrate_ode, Vehicle.add_disturbance, Vehicle._add_to_memory, Vehicle.draw
  - not modelled: Vehicle.set_options, Vehicle.set_parameters, Vehicle._state2pose, Vehicle._ode, Vehicle._ode_1storder, Vehicle.init_plot, Vehicle.update_plot, Vehicle.init, Vehicle.define_trajectory_constraints, Vehicle.get_initial_constraints, Vehicle.get_terminal_constraints, Vehicle.check_terminal_conditions, Vehicle.splines2signals, Vehicle.state2pose, Vehicle.ode
* C++ templates in `omgtools/export`: cited files `ADMMPoint2Point.cpp`, `Holonomic.cpp`, `Point2Point.cpp`, `Vehicle.cpp`; the rest is not modelled.

572 of 883 Python functions are cited.


## Assumptions of every theorem

As listed by `Print Assumptions`.  All axioms are declared by the standard library; no other axiom, parameter or admitted proof occurs.

### Closed under the global context

`C11_endless_refuted`, `C11_father_keeps_all`, `C11_first_free`, `C11_returns_iff`, `C11_stem`, `C11_unique`, `C12_dual_basis_refuted`, `C12_no_skip`, `C12_skip`, `C12_zero_refuted`, `C13_delivered`, `C13_last_value`, `C13_twice_refused`, `C14_accepted_iff`, `C14_refusal`, `C15_legal`, `C15_path`, `C16_terminates`, `C17_exhausted`, `C17_false_alarm_refuted`, `C17_no_neighbors`, `C17_unreachable_raises`, `C18_corner_cut_refuted`, `C18_down_left`, `C18_legal`, `C18_refused_refuted`, `C18_symmetric`, `C19_blocked`, `C19_closest_refuted`, `C19_free`, `C19_inside`, `C19_nearest`, `C20_admissible`, `C20_optimal_refuted`, `C20_quality`, `C20_sqrt2`, `C21_blocked_iff`, `C21_circle_box`, `C21_other_shape_refuted`, `C21_rect_box`, `C21_sound`, `C21_thin_refuted`, `C21_wide_detected`, `C26_clock`, `C26_clock_refuted`, `C26_coarse_stop_refuted`, `C26_count`, `C26_drift`, `C26_grid`, `C26_last_sample_refuted`, `C26_run`, `C26_total`, `C27_exact`, `C27_nearest_refuted`, `C28_parameter`, `C28_positive`, `C28_python2`, `C28_python3`, `C29_consistent`, `C29_exact`, `C29_lost_refuted`, `C29_never_more`, `C29_once`, `C29_rounding_refuted`, `C31_aligned`, `C31_axis_end`, `C31_columns`, `C31_enough_columns`, `C31_misaligned_refuted`, `C31_stored`, `C31_time_log`, `C32_circular`, `C32_circular_symmetric`, `C32_full`, `C32_full_once`, `C32_small_refuted`, `C32_strings`, `C33_circular_count`, `C33_connected`, `C33_couples_cover`, `C33_couples_once`, `C33_couples_only`, `C33_full_count`, `C34_connected`, `C34_count`, `C34_couples`, `C34_one_refuted`, `C34_two_refuted`, `C35_constraints`, `C35_expected_is_sent`, `C35_ji_keys`, `C35_layout_refuted`, `C35_local`, `C35_neighbours`, `C35_neighbours_once`, `C35_no_self`, `C35_order`, `C35_remote`, `C35_ring_order`, `C35_same_layout`, `C35_self_refuted`, `C35_sorted`, `C35_symmetric`, `C37_exchange`, `C37_fresh`, `C37_own_kept`, `C37_shift`, `C40_histories`, `C40_residual_plot`, `C40_residual_plot_refuted`, `C40_solve`, `C40_solve_terminates`, `C40_stop_arrival`, `C40_stop_limit`, `C40_stop_refuted`, `C41_blank`, `C41_center`, `C41_center_refuted`, `C41_chain`, `C41_comment_refuted`, `C41_connections`, `C41_connections_refuted`, `C41_continued`, `C41_end`, `C41_feed`, `C41_feed_refuted`, `C41_meaning`, `C41_rapid`, `C41_read`, `C41_subfile_refuted`, `C41_words`, `C42_last`, `C42_lossless`, `C42_pieces`, `C42_proper`, `C45_advance`, `C45_numbers`, `C45_numbers_refuted`, `C45_progress`, `C45_renumbered_refuted`, `C45_stop_refuted`, `C45_stuck_refuted`, `C45_too_many`, `C45_window`, `C50_tool_common_bound`, `C55_columns`, `C55_position_iff`, `C55_shift_position`, `C56_default`, `C56_default_last_refuted`, `C56_defined`, `C56_empty`, `C56_frames`, `C56_last`, `C56_more_frames_refuted`, `C56_single_frame_refuted`, `C56_tikz_last_refuted`, `C58_chain`, `C58_count`, `C58_end`, `C58_start`, `C58_stay`, `C58_stop`, `C58_switch`, `C58_window`, `C59_base_refuted`, `C59_border`, `C59_moved`, `C59_moved_refuted`, `C59_moved_size`, `C59_moved_start`, `C59_room`, `C59_scaled`, `C59_scaled_ends`, `C59_scaled_refuted`, `C59_scaled_stuck`, `C60_binding`, `C60_underscore_refuted`, `C61_constraints_kept`, `C61_count_after_reset_refuted`, `C61_lost_refuted`, `C61_problem_complete`, `C62_python3_refuted`, `C62_shutdown`, `C70_column`, `C70_in_range`, `C70_truncated_refuted`, `C73_center_refuted`, `C73_convert`, `C73_offset_refuted`, `C85_requested`, `C85_requested_lower_refuted`, `C86_history`, `C86_obstacle_numbered`, `C86_python`, `C93_snap`, `C93_snap_nearest`, `C93_snap_twice`, `C95_base`, `C95_closest`, `C95_closest_best`, `C95_corridor`, `C95_extended`, `C95_staircase`, `C95_start_refuted`, `C96_corner_refuted`, `C96_move_frame`, `C96_move_frame_exact`, `C96_move_frame_outside_refuted`, `C96_move_frame_side_refuted`, `C96_move_point`, `C96_moved_point`, `C96_none`, `C96_none_refuted`, `C96_other_side_refuted`, `C96_waypoints`, `C97_avoid_refuted`, `C97_both_refuted`, `C97_covering_refuted`, `C97_disc_refuted`, `C97_environment`, `C97_fast_refuted`, `C97_moving`, `C97_moving_noticed`, `C97_neither_refuted`, `C97_rotated_refuted`, `C97_samples`, `C97_stationary`, `C97_stationary_complete`, `C97_stationary_fails`, `C97_stationary_rect`, `C97_stationary_total`, `C98_inside`, `C98_return_refuted`, `C98_unusable`, `C99_corner`, `C99_intersection`, `C99_l_shape`, `C99_segments`, `C99_waypoint_refuted`, `C100_ignored_refuted`, `C100_listed`, `C100_one`, `C100_rebuild`, `C100_start`, `C100_switch`, `C101_at_goal_refuted`, `C101_default`, `C101_fine`, `C101_fixed_time`, `C101_lshape`, `C101_near`, `C101_no_options`, `C101_shift`, `C101_type`, `C102_closed`, `C102_short_refuted`, `C102_start`, `C102_switch`, `C103_end`, `C103_target`, `C127_columns_refuted`, `C152_child_works`, `C153_all`, `C153_back`, `C153_length`, `C153_works`, `C154_shapes`, `C155_names`, `C175_kinds`, `C175_names`, `C175_slack_refuted`, `C191_all`, `C193_alike`, `C193_builder`, `C193_distinct`, `C193_partition`, `C194_arguments`, `C194_column`, `C194_delay_refuted`, `C195_first`, `C195_last`, `C195_made`, `C195_made_refuted`, `C195_next`, `C195_single`, `C203_add`, `C203_fill`, `C203_owns_add`, `C203_owns_fill`, `C204_counts`, `C204_doubles_refuted`, `C204_idle`, `C204_index`, `C204_lengths`, `C204_session`, `C205_initial`, `C205_missing_refuted`, `C205_pass_on`, `C206_fleets_refuted`, `C206_vehicles`, `C207_long_refuted`, `C207_mixed_refuted`, `C207_number`, `C207_points`, `C207_rest`, `C208_minus`, `C208_stops`, `C208_written`, `C209_groups_refuted`, `C209_inside`, `C209_search`, `C210_add`, `C210_dir_refuted`, `C210_dots`, `C210_error`, `C210_lists`, `C210_name_refuted`, `C210_namespace_refuted`, `C210_round`, `C211_between_refuted`, `C211_fill`, `C211_order`, `C212_capitals`, `C212_comment_refuted`, `C212_guard`, `C212_label`, `C212_missing`, `C212_missing_length`

### `ClassicalDedekindReals.sig_forall_dec`

`C33_keys_refuted`, `C37_every_update`, `C46_active`, `C46_length`, `C46_short`, `C46_symmetric`, `C46_values`, `C55_initialised`, `C55_parameters`, `C55_position`, `C55_read_back`, `C55_round_trip`, `C55_scalar_variable_refuted`, `C55_variables`, `C86_obstacle_shutdown_refuted`, `C87_retrieved`, `C93_snap_point`, `C134_default`, `C134_refused`, `C134_used`, `C152_array`, `C152_child`, `C152_none`, `C152_plain`, `C152_set`, `C152_set_works`, `C152_splines`, `C153_place`, `C154_group`, `C154_init`, `C154_plain`, `C154_set`, `C154_works`, `C155_raises`, `C157_within`, `C190_back`, `C190_empty`, `C190_entry`, `C190_label_refuted`, `C190_laid_out`, `C190_spline`, `C190_there`, `C191_blocks`, `C191_consecutive`, `C191_vector`, `C198_default`, `C198_goal`, `C198_own`, `C203_copy`, `C203_copy_refuted`, `C203_count_refuted`, `C203_environment`, `C203_replace_refuted`

### `ClassicalDedekindReals.sig_forall_dec`, `FunctionalExtensionality.functional_extensionality_dep`

`C01_local_support`, `C01_overclamped_refuted`, `C01_partition_of_unity`, `C01_zero_outside`, `C02_convex_hull`, `C03_add`, `C03_add_number`, `C03_evalspline`, `C03_neg`, `C03_scal`, `C03_sub`, `C04_continuous`, `C04_derivative`, `C04_end_values`, `C04_shape`, `C05_antiderivative`, `C05_definite_additive`, `C05_derivative_of_running_integral`, `C05_start_end`, `C06_crop`, `C06_crop_start`, `C06_knot_insertion`, `C07_scale`, `C07_scale_compose`, `C08_clamped`, `C08_power_knots`, `C08_power_knots_refuted`, `C08_product_knots`, `C08_product_multiplicity`, `C08_sum_knots`, `C08_sum_multiplicity`, `C09_power`, `C09_power_degree`, `C09_power_zero_refuted`, `C10_eq_is_equality`, `C10_equal_hash`, `C10_greville`, `C10_greville_identity`, `C23_none`, `C23_point`, `C23_segments_crossing`, `C23_segments_sound`, `C23_touching_refuted`, `C32_antisymmetric`, `C32_difference`, `C33_centre`, `C33_formation`, `C33_rendezvous`, `C34_formation`, `C36_feasible`, `C36_function`, `C36_multiplier`, `C36_optimal`, `C36_regular`, `C36_singular_refuted`, `C36_unique`, `C37_shift_refuted`, `C37_start_refuted`, `C46_few_refuted`, `C46_integral_refuted`, `C46_rest`, `C46_sum`, `C47_constraint`, `C47_end`, `C47_gcode`, `C47_smooth`, `C47_start`, `C47_top_derivative_refuted`, `C47_total`, `C47_within`, `C47_zero_times_refuted`, `C48_first_segment`, `C48_joints`, `C48_prediction`, `C48_segments_refuted`, `C48_segments_uniform`, `C48_simulation`, `C48_simulation_refuted`, `C48_value_now`, `C48_velocity`, `C50_1d`, `C50_3d_norm_inf`, `C50_all_times`, `C50_common_bound`, `C50_norm_inf`, `C50_orient_norm_inf`, `C50_tool_axes`, `C50_unknown_limit`, `C51_dubins_acceleration`, `C51_dubins_acceleration_refuted`, `C51_dubins_limits`, `C51_exact_substitution`, `C55_row_parameter_refuted`, `C55_shared_name_refuted`, `C55_shift`, `C55_two_columns_refuted`, `C56_colour`, `C57_collinear`, `C57_corner`, `C57_corner_refuted`, `C57_general`, `C57_horizontal_first`, `C57_horizontal_refuted`, `C57_horizontal_second`, `C57_inline`, `C57_recovers`, `C57_vertical`, `C57_vertical_refuted`, `C66_crossing_refuted`, `C66_moving_dwell`, `C66_moving_sound`, `C66_static`, `C68_room_3d`, `C72_stationary_optimal`, `C77_holonomic`, `C77_quadrotor`, `C79_height`, `C80_compose`, `C80_determined`, `C80_flow`, `C80_jump_times`, `C80_jumps`, `C80_log`, `C80_measured_log`, `C80_measured_log_refuted`, `C80_measured_state`, `C80_no_value_at_zero`, `C80_orientation`, `C80_sample`, `C80_value_at_zero`, `C80_value_at_zero_refuted`, `C82_insert_knots`, `C82_insert_knots_basis`, `C82_solver`, `C82_solver_succeeds`, `C82_transform`, `C82_transform_exists`, `C83_closed`, `C83_closed_sum`, `C83_difference`, `C83_product`, `C83_product_exact`, `C83_sum`, `C83_sum_exact`, `C84_free`, `C84_free_degenerate_refuted`, `C84_free_last_refuted`, `C84_free_refuted`, `C84_multi`, `C84_multi_negative_refuted`, `C84_multi_shift_refuted`, `C84_shift`, `C84_simulated`, `C84_stop`, `C84_times`, `C85_count_first`, `C85_count_range`, `C85_equal_cubes_refuted`, `C85_gcode`, `C85_gcode_cubic`, `C85_gcode_doubles`, `C85_gcode_quadratic`, `C85_moving`, `C85_negative_refuted`, `C85_origin`, `C85_single`, `C85_sites_cubic`, `C85_sites_quadratic`, `C85_smooth`, `C85_stacked`, `C85_standstill_doubles`, `C85_standstill_refuted`, `C85_test_negative_refuted`, `C85_test_positive`, `C85_test_zero_refuted`, `C85_zero_kept`, `C86_obstacle_predicted`, `C87_columns_refuted`, `C87_transformed`, `C88_basis`, `C88_evaluation`, `C88_initial_guess`, `C88_knots`, `C88_sampling`, `C89_constant`, `C89_default_length_refuted`, `C89_defined`, `C89_error`, `C89_ideal`, `C89_integrated`, `C89_restart`, `C89_state_ode_refuted`, `C89_sum`, `C89_total`, `C89_varying_input_refuted`, `C90_clock`, `C90_local_range`, `C90_local_rounding_refuted`, `C90_local_time`, `C90_long_update_refuted`, `C90_retry_refuted`, `C91_clock`, `C91_step_back`, `C91_two_steps_back_refuted`, `C91_z_late_refuted`, `C91_z_time`, `C92_polycubic_refuted`, `C93_accepted`, `C93_accepted_refuted`, `C93_grid`, `C93_grid_refuted`, `C93_grid_square`, `C93_load`, `C93_margin`, `C93_margin_outside`, `C93_margin_refuted`, `C93_move`, `C93_move_back`, `C93_roundtrip`, `C94_circle`, `C94_line`, `C94_line_defined`, `C94_line_refuted`, `C94_no_transform_refuted`, `C94_polyline`, `C94_polyline_length`, `C94_rect`, `C104_length`, `C104_same`, `C105_after`, `C105_before`, `C105_same`, `C105_works`, `C106_close`, `C106_equidistant`, `C106_raises`, `C106_works`, `C107_close`, `C107_equidistant`, `C107_late_refuted`, `C107_repeated_refuted`, `C107_short_refuted`, `C107_works`, `C108_builds`, `C108_close`, `C108_exact`, `C108_number_refuted`, `C108_plain`, `C108_stricter_refuted`, `C109_ends_refuted`, `C109_skip`, `C109_zero_refuted`, `C110_trip`, `C110_two_norm`, `C112_motion`, `C118_mixed_refuted`, `C124_idle`, `C155_label_refuted`, `C155_ten_refuted`, `C155_transform`, `C155_works`, `C156_init`, `C156_works`, `C157_shift`, `C157_slack_refuted`, `C157_works`, `C158_frames`, `C158_frames_none`, `C158_guess`, `C158_none`, `C158_points`, `C158_start_refuted`, `C158_step`, `C158_twice_refuted`, `C159_infeasible_refuted`, `C159_solve`, `C159_twice`, `C160_hold`, `C160_sleep`, `C161_elevate`, `C170_axes`, `C170_one`, `C170_three`, `C174_raises`, `C176_keeps`, `C176_two_refuted`, `C177_soft`, `C179_hull`, `C179_one`, `C179_ratio`, `C180_close`, `C180_quotient`, `C180_scaled`, `C180_sum`, `C180_times`, `C180_zero_refuted`, `C181_kinks_refuted`, `C181_orders`, `C181_slope`, `C182_even`, `C182_weights_refuted`, `C183_difference`, `C183_minus_refuted`, `C183_minus_value`, `C183_product`, `C183_scaled`, `C183_shifted`, `C183_sum`, `C183_two_only`, `C183_value`, `C184_means`, `C184_order_refuted`, `C184_raises_refuted`, `C184_right`, `C185_end`, `C185_jerk_refuted`, `C185_smooth`, `C185_start`, `C185_times`, `C186_columns`, `C186_rows`, `C186_short`, `C186_twice_refuted`, `C187_flat`, `C187_line`, `C187_line_refuted`, `C187_positions`, `C187_rejected`, `C187_retried`, `C187_speed_refuted`, `C188_counted`, `C188_first`, `C188_limit`, `C188_many`, `C188_restart`, `C188_survives_refuted`, `C189_progress`, `C191_back`, `C191_forward`, `C191_gap_refuted`, `C191_many_refuted`, `C191_over_knot`, `C196_ends`, `C196_flat`, `C196_height_refuted`, `C197_checked`, `C197_sign_refuted`, `C198_rest_refuted`, `C198_slack`, `C198_slack_close`, `C198_stop`, `C201_run_once`, `C202_hard`, `C202_replan`, `C202_zero`, `C202_zero_refuted`

### `ClassicalDedekindReals.sig_forall_dec`, `ClassicalDedekindReals.sig_not_dec`, `FunctionalExtensionality.functional_extensionality_dep`

`C22_center`, `C22_overlap`, `C22_raises`, `C22_symmetric`, `C24_corner_refuted`, `C24_descending_refuted`, `C24_edge`, `C24_sound`, `C24_upright`, `C24_vertex`, `C25_collision_free`, `C25_collision_free_3d`, `C25_no_common_interior`, `C25_vehicles_apart`, `C30_arrival`, `C30_arrival_refuted`, `C30_large_tolerance`, `C30_quadrotor3d`, `C30_quadrotor3d_refuted`, `C30_trailer`, `C32_configuration`, `C32_configuration_value`, `C32_orientation`, `C33_rendezvous_stop`, `C38_combined`, `C38_dd_refuted`, `C38_dd_zero`, `C38_root`, `C38_zero`, `C39_alpha`, `C39_equation`, `C39_first`, `C39_growth`, `C39_growth_total`, `C39_no_endless_reset`, `C39_reset`, `C39_reset_refuted`, `C39_state`, `C39_weight`, `C49_corner_refuted`, `C49_deep_refuted`, `C49_inward_refuted`, `C49_left_wall`, `C49_lower_wall`, `C49_reflection`, `C49_returns`, `C49_right_wall`, `C49_room_circle`, `C49_room_polygon`, `C49_runs`, `C49_runs_refuted`, `C49_speed`, `C49_straight`, `C49_untouched`, `C49_upper_wall`, `C50_3d_norm_2`, `C50_norm_2`, `C50_orient_norm_2`, `C50_tool_machining`, `C50_tool_z_refuted`, `C52_quadrotor_limits`, `C52_simple_rate_refuted`, `C53_start_refuted`, `C63_rectangle`, `C63_regular`, `C64_clockwise`, `C64_counterclockwise_refuted`, `C64_rectangle`, `C64_sides`, `C65_length`, `C65_line`, `C65_rectangle`, `C65_repeat_refuted`, `C65_symmetric`, `C65_triangle`, `C65_zero`, `C67_circle_inside`, `C67_discs`, `C67_polygon_inside`, `C67_symmetric`, `C68_polygonal_room`, `C68_rectangular_room`, `C68_sphere_refuted`, `C69_rigid`, `C69_turns`, `C71_coupling`, `C75_axis`, `C75_diagonal`, `C75_margin_refuted`, `C75_ring`, `C75_square`, `C76_distance_refuted`, `C78_holonomic`, `C78_quadrotor3d`, `C78_quadrotor3d_refuted`, `C79_aligned`, `C79_arc`, `C79_level_refuted`, `C79_slanted`, `C81_measured_refuted`, `C92_length`, `C92_move_only_refuted`, `C92_path_first_refuted`, `C92_path_not_moved_refuted`, `C92_reversed_line_refuted`, `C92_shows`, `C92_two_halves_refuted`, `C93_build`, `C93_clicks`, `C93_clicks_off`, `C93_clicks_refuted`, `C93_fails`, `C93_last_two_clicks`, `C93_picture`, `C93_room`, `C93_select`, `C93_select_circle`, `C93_select_rect`, `C93_select_rect_refuted`, `C111_close`, `C111_disc`, `C111_room`, `C111_safe`, `C111_space`, `C111_vehicles`, `C116_stops`, `C119_motion`, `C125_objective`, `C125_stops`, `C125_terminates`, `C126_first_raises_refuted`, `C128_orient_refuted`, `C129_rests`, `C130_sizes`, `C131_holonomic_only`, `C132_fits`, `C132_needs_guess`, `C132_one_segment`, `C132_reinitialize`, `C132_shape`, `C132_tool`, `C133_fitting`, `C133_given`, `C133_reset_refuted`, `C133_shared`, `C133_timeout`, `C134_default_refuted`, `C135_period`, `C136_drive`, `C136_ends`, `C138_rest`, `C142_stamps`, `C143_beam`, `C143_circle`, `C143_rectangle`, `C145_cuboid`, `C145_plate`, `C145_sphere`, `C146_circle`, `C146_polyhedron`, `C146_solid`, `C146_sphere`, `C147_drawn`, `C147_plate_refuted`, `C147_rectangle`, `C147_solid`, `C148_dubins`, `C148_holonomic`, `C148_solid`, `C149_agv`, `C149_agv_long_refuted`, `C149_agv_steered_refuted`, `C149_bicycle`, `C149_bicycle_hits_refuted`, `C149_bicycle_outside_refuted`, `C149_dubins`, `C149_quadrotor`, `C149_quadrotor3`, `C150_lead_refuted`, `C150_trailer`, `C150_unseen`, `C151_environment`, `C151_room`, `C151_shapes`, `C151_turned_refuted`, `C170_norm`, `C171_space`, `C173_apart3`, `C189_early_refuted`, `C189_end`, `C189_skip_refuted`, `C192_bound`, `C192_defined`, `C192_formation`, `C192_nonneg`, `C192_off_centre_refuted`, `C192_zero`, `C196_close`, `C196_stays`, `C199_clock`, `C199_in_time`, `C199_pass`, `C199_run`, `C199_shown`, `C200_again`, `C200_default_refuted`, `C200_even`

### `ClassicalDedekindReals.sig_forall_dec`, `ClassicalDedekindReals.sig_not_dec`, `Classical_Prop.classic`, `FunctionalExtensionality.functional_extensionality_dep`

`C05_definite_integral`, `C43_clockwise`, `C43_counter_clockwise`, `C43_first`, `C43_full_circle_refuted`, `C43_height_refuted`, `C43_last`, `C44_chain`, `C44_membership`, `C44_parts`, `C44_parts_refuted`, `C44_room`, `C44_tight`, `C50_orient_rate`, `C51_bicycle_limits`, `C51_bicycle_ode`, `C51_braking_refuted`, `C51_correction_refuted`, `C51_dubins_ode`, `C51_dubins_trajectory`, `C51_no_correction`, `C51_same_position`, `C51_steering_at_start`, `C51_steering_rate`, `C52_quadrotor3d_limits`, `C52_quadrotor3d_ode`, `C52_quadrotor_ode`, `C52_simple_angle_refuted`, `C52_simple_limits`, `C52_simple_ode`, `C53_angle_refuted`, `C53_angle_same_side`, `C53_angle_strict_refuted`, `C53_hitched`, `C53_pull`, `C53_state_ode`, `C53_stays_hitched`, `C54_coincide`, `C54_constrained_center`, `C54_logged_center`, `C74_full_circle_refuted`, `C74_halves_refuted`, `C74_parts`, `C74_region`, `C76_profile`, `C77_bicycle`, `C77_bicycle_refuted`, `C77_bicycle_slow`, `C77_dubins`, `C77_dubins_any_heading`, `C77_orient`, `C77_quadrotor3d`, `C77_simple`, `C77_trailer`, `C78_bicycle`, `C78_bicycle_rate`, `C78_bicycle_refuted`, `C78_dubins`, `C78_orient`, `C78_quadrotor`, `C78_simple`, `C81_angle`, `C81_corner`, `C81_rigid`, `C81_start`, `C113_limits`, `C114_plan`, `C115_safe`, `C117_objective`, `C120_limits`, `C121_plan`, `C122_safe`, `C123_arrives`, `C123_skip`, `C128_straight`, `C130_angle`, `C130_trailer`, `C131_rooms`, `C135_heading_refuted`, `C135_trailer_refuted`, `C137_limits`, `C139_safe`, `C140_cost`, `C140_run_refuted`, `C141_jump_refuted`, `C141_steps`, `C144_circles`, `C144_regular`, `C145_prism`, `C161_operations`, `C161_regular`, `C161_unique`, `C162_track`, `C163_exact`, `C163_trip`, `C164_gap`, `C164_reach`, `C165_exact`, `C165_safe`, `C166_trip`, `C167_trip`, `C168_trip`, `C169_planar`, `C169_simple`, `C170_orient`, `C171_close`, `C171_end_speed_refuted`, `C171_exact`, `C172_apart`, `C178_room`, `C196_circle_refuted`, `C196_start`, `C196_start_ends`, `C197_keeps`, `C197_keeps_z`, `C197_least`, `C197_passes`, `C197_total`, `C197_y_refuted`, `C197_z_refuted`
