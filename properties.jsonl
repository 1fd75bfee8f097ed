{"id": "C01", "title": "A strict world never shows a penetration above tol after a step", "statement": "Build World(bodies, constraints, strict_no_penetration=True, post_stab=False). If the constructor returns, and after every later World.step() / World.step(fixed_dt=True) that returns, every entry of world.contacts has penetration <= world.tol.", "quantifier": "every list of bodies and constraints, every engine and contact callback, every broad-phase answer, every arithmetic (reals or IEEE doubles), every finite history of step() and step(fixed_dt=True) calls", "why_tests_cant": "a test runs a few scenes for a few seconds; the guarantee is about all scenes, all numbers of halvings and all histories", "anchors": ["lcp_physics/physics/world.py:World.__init__", "lcp_physics/physics/world.py:World.step", "lcp_physics/physics/world.py:World.step_dt"]}
{"id": "C02", "title": "Post-stabilisation may break the no-penetration guarantee", "statement": "Relied on (the scenes of demo.py and inference.py use post_stab=True): the guarantee of C01 also holds with post_stab=True, i.e. after step() returns every contact has penetration <= tol. Finding: it fails; a strict world of three circles ends a step with a contact far above tol, and its next step then never ends. What holds: the state the step accepted before the correction had every contact within tol.", "quantifier": "every strict world with post_stab=True", "why_tests_cant": "demos do not assert on world.contacts after a step; a violating scene must be searched for", "anchors": ["lcp_physics/physics/world.py:World.step_dt"]}
{"id": "C03", "title": "A step advances time by dt divided by a power of two", "statement": "If World.step_dt(dt) returns, world.t has increased by exactly dt/2^k, where k is the number of times the trial move was rejected; for dt>0 the advance is > 0 and <= dt, and time never goes backwards over any history.", "quantifier": "every world, engine, contact callback, dt and number of rejections k", "why_tests_cant": "k depends on the scene and is unbounded", "anchors": ["lcp_physics/physics/world.py:World.step_dt"]}
{"id": "C04", "title": "step(fixed_dt=True) lands exactly on t + dt", "statement": "When World.step(fixed_dt=True) returns, world.t equals the t at entry plus world.dt (exact arithmetic), whatever number of sub-steps and halvings happened; in any arithmetic the returned t is not below the end time.", "quantifier": "every world, every number of inner sub-steps and halvings", "why_tests_cant": "the number of sub-steps is unbounded and scene dependent", "anchors": ["lcp_physics/physics/world.py:World.step", "lcp_physics/physics/world.py:World.step_dt"]}
{"id": "C05", "title": "Non-strict worlds always make progress and run_world terminates", "statement": "With strict_no_penetration=False, World.step() tries the move at most four times (dt, dt/2, dt/4, dt/8), so it always advances time by at least dt/8, and run_world(world, run_time) returns after at most ceil(8*run_time/dt) steps, with world.t >= run_time and world.t < run_time + dt.", "quantifier": "every non-strict world with dt>0 whose engine and contact callback return, every run_time", "why_tests_cant": "termination is a statement about all runs", "anchors": ["lcp_physics/physics/world.py:World.step_dt", "lcp_physics/physics/world.py:run_world"]}
{"id": "C06", "title": "A rejected trial move leaves no trace on the bodies", "statement": "After a step that was halved k times, every body's pose p, vertices and broad-phase geometry are exactly those obtained by moving once from the start pose with the solved velocity for dt/2^k: rejected attempts are fully undone.", "quantifier": "every world, every k, every mix of circles, hulls and rects, exact arithmetic", "why_tests_cant": "needs every k and every rotation, and the undo is only exact because of trigonometric identities", "anchors": ["lcp_physics/physics/world.py:World.step_dt", "lcp_physics/physics/world.py:World.set_p", "lcp_physics/physics/bodies.py:Hull.set_p", "lcp_physics/physics/bodies.py:Rect.set_p"]}
{"id": "C07", "title": "A rejected trial move leaves no trace on the joints", "statement": "Relied on: after a step halved k times every joint is in the state reached by one move of dt/2^k from its start state. This holds for the anchor, the anchor offsets and rot1. Finding: it fails for rot2 of a two-body Joint, which has turned by omega2*dt*(2-1/2^k) instead of omega2*dt/2^k, because only rot1 is restored.", "quantifier": "every world with joints, every k", "why_tests_cant": "drift appears only for two-body joints in rejected steps and only in an attribute no test reads", "anchors": ["lcp_physics/physics/world.py:World.step_dt", "lcp_physics/physics/constraints.py:Joint.move", "lcp_physics/physics/constraints.py:Joint.update_pos"]}
{"id": "C08", "title": "External impulse matches elapsed time", "statement": "Relied on: the momentum an external force f adds to a free body during World.step() is f times the simulated time that step advanced. Finding: it fails in halved steps. What holds: the momentum added is f times the full dt whatever the number k of halvings, while time advances by dt/2^k and the body moves for dt/2^k.", "quantifier": "every world with the package's engine and callbacks, every history, every step and body without contacts and constraints", "why_tests_cant": "the discrepancy appears only in steps with rejected trial moves", "anchors": ["lcp_physics/physics/world.py:World.step_dt", "lcp_physics/physics/engines.py:PdipmEngine.solve_dynamics"]}
{"id": "C09", "title": "World velocity vector and body velocities are the same data", "statement": "After World(...), set_v(v) or step(), world.get_v() is the concatenation, in body order, of the bodies' (angular, x, y) velocities; set_v(get_v()) changes nothing; set_p places body i at slice i; apply_forces(t) concatenates the bodies' forces in the same order.", "quantifier": "every number of bodies, every velocity vector, every history", "why_tests_cant": "layout errors depend on the number of bodies", "anchors": ["lcp_physics/physics/world.py:World.set_v", "lcp_physics/physics/world.py:World.get_v", "lcp_physics/physics/world.py:World.set_p", "lcp_physics/physics/world.py:World.apply_forces"]}
{"id": "C10", "title": "add_no_contact is symmetric and is always respected", "statement": "After any sequence of add_no_contact calls the relation is symmetric, and no contact between two bodies in it is ever recorded, whatever order the broad phase reports the pair in; every recorded contact names two different bodies of the world.", "quantifier": "every sequence of add_no_contact calls, every broad-phase order, every reachable state", "why_tests_cant": "depends on call history and on ODE's unspecified pair order", "anchors": ["lcp_physics/physics/bodies.py:Body.add_no_contact", "lcp_physics/physics/contacts.py:DiffContactHandler.__call__", "lcp_physics/physics/contacts.py:OdeContactHandler.__call__", "lcp_physics/physics/world.py:World.find_contacts"]}
{"id": "C11", "title": "The broad phase misses no close pair", "statement": "If the true distance of two bodies is at most world.eps and the bodies' eps satisfy eps1+eps2 >= world.eps, the broad-phase geometry (sphere or rotated box, inflated by eps) of the two bodies overlaps axis by axis, so the contact callback is called for the pair.", "quantifier": "every pair of circles, hulls and rects in every pose reachable through move/set_p", "why_tests_cant": "continuous family of poses; the box orientation is set through an unusual quaternion", "anchors": ["lcp_physics/physics/bodies.py:Circle._create_geom", "lcp_physics/physics/bodies.py:Hull._create_geom", "lcp_physics/physics/bodies.py:Rect._create_geom", "lcp_physics/physics/bodies.py:Body.set_p"]}
{"id": "C12", "title": "Hull keeps the given world vertices and is placed at its area centroid", "statement": "Hull(ref_point, vertices) with a non-degenerate polygon: body position + body vertex i = ref_point + vertices[i], body position is the area centroid of the polygon, and the centroid of the stored vertices is the origin of the body frame.", "quantifier": "every polygon with non-zero area, every ref_point", "why_tests_cant": "all polygons of all sizes", "anchors": ["lcp_physics/physics/bodies.py:Hull.__init__", "lcp_physics/physics/bodies.py:Hull._get_centroid"]}
{"id": "C13", "title": "The orientation check accepts exactly the polygons with positive signed area", "statement": "Hull(...) raises AssertionError iff fewer than three vertices are given or the signed (shoelace) area of the vertices is not positive; the check is invariant under translation and rotation, so a body accepted once stays valid for every pose.", "quantifier": "every vertex list, every rigid motion", "why_tests_cant": "all polygons of all sizes", "anchors": ["lcp_physics/physics/bodies.py:Hull.__init__", "lcp_physics/physics/bodies.py:Hull._is_clockwise"]}
{"id": "C14", "title": "Bodies move rigidly", "statement": "After any history of set_p / move / World.set_p calls a hull's or rect's vertices are the initial vertices rotated by the body's angle; edge lengths, area, centroid and moment of inertia never change.", "quantifier": "every polygon and every finite history of moves", "why_tests_cant": "unbounded histories", "anchors": ["lcp_physics/physics/bodies.py:Hull.set_p", "lcp_physics/physics/bodies.py:Hull.rotate_verts", "lcp_physics/physics/bodies.py:Rect.rotate_verts", "lcp_physics/physics/bodies.py:Body.move"]}
{"id": "C15", "title": "Rect is the hull of its four corners", "statement": "Rect(pos, dims): the stored vertices are the corners of an axis-aligned w x h rectangle rotated by the body's angle for every history; its centroid is pos; its moment of inertia m(w^2+h^2)/12 equals the polygon formula used for Hull; a 3-component pos gives the requested initial angle.", "quantifier": "every pos, dims, mass, angle and history", "why_tests_cant": "continuous parameters and unbounded histories", "anchors": ["lcp_physics/physics/bodies.py:Rect.__init__", "lcp_physics/physics/bodies.py:Rect._get_ang_inertia", "lcp_physics/physics/bodies.py:Rect.rotate_verts"]}
{"id": "C16", "title": "Mass matrices are symmetric positive definite", "statement": "For positive mass and a non-degenerate shape, body.M is diagonal with entries (inertia, mass, mass), all positive, and world.M() is the block diagonal of the bodies' M: symmetric and positive definite.", "quantifier": "every list of valid bodies", "why_tests_cant": "any number of bodies", "anchors": ["lcp_physics/physics/bodies.py:Body.__init__", "lcp_physics/physics/world.py:World.__init__", "lcp_physics/physics/world.py:World.M"]}
{"id": "C17", "title": "Broad-phase box orientation agrees with the rectangle", "statement": "The quaternion handed to ODE for a rect at angle theta rotates the box onto exactly the same point set as rotating it by theta (as a set the box equals the vertices' rectangle inflated by eps).", "quantifier": "every angle", "why_tests_cant": "uses sin/cos in swapped quaternion slots; every real angle", "anchors": ["lcp_physics/physics/bodies.py:Body.set_p", "lcp_physics/physics/bodies.py:Rect._create_geom"]}
{"id": "C18", "title": "Gravity and external forces", "statement": "A body with one Gravity(g) gets force (0, 0, m*g) at every time; apply_forces is the sum of the attached forces' values; vert/hor/rot impulses act exactly while t < 0.1; a body without forces gets zeros.", "quantifier": "every list of forces, every time, every mass", "why_tests_cant": "every list and every time", "anchors": ["lcp_physics/physics/forces.py:Gravity", "lcp_physics/physics/forces.py:ExternalForce", "lcp_physics/physics/forces.py:vert_impulse", "lcp_physics/physics/bodies.py:Body.apply_forces"]}
{"id": "C19", "title": "A Gravity object belongs to one body", "statement": "Relied on: adding forces to one body does not change the force another body gets. This holds if the force object is not attached to the other body, or is an ExternalForce. Finding: it fails for a Gravity object shared by two bodies: the first body is then pulled with the weight of the second.", "quantifier": "every sequence of add_force calls, including re-use of one force object for several bodies", "why_tests_cant": "aliasing depends on call history", "anchors": ["lcp_physics/physics/bodies.py:Body.add_force", "lcp_physics/physics/forces.py:Gravity.set_body"]}
{"id": "C20", "title": "Constraint Jacobians measure the constrained relative velocity", "statement": "Row block J of a Joint applied to the velocities is the velocity of the anchor on body1 minus the velocity of the anchor on body2; FixedJoint adds the relative angular velocity; X/Y/Rot/TotalConstraint select the frozen velocity components. world.Je() stacks these blocks at the bodies' columns, in constraint order.", "quantifier": "every joint, anchor, velocity vector and mix of constraints", "why_tests_cant": "every number and mix of constraints", "anchors": ["lcp_physics/physics/constraints.py:Joint.J", "lcp_physics/physics/constraints.py:FixedJoint.J", "lcp_physics/physics/constraints.py:XConstraint.J", "lcp_physics/physics/constraints.py:YConstraint.J", "lcp_physics/physics/constraints.py:RotConstraint.J", "lcp_physics/physics/constraints.py:TotalConstraint.J", "lcp_physics/physics/world.py:World.Je"]}
{"id": "C21", "title": "A joint anchor stays rigidly attached to body1", "statement": "For every history of steps (with any number of rejected trial moves) a Joint's anchor offset from body1 is its initial offset rotated by the angle body1 has turned, and the anchor offset from body2 is the same world point seen from body2.", "quantifier": "every history of steps, every anchor", "why_tests_cant": "unbounded histories; polar representation with angle wrap-around", "anchors": ["lcp_physics/physics/constraints.py:Joint.__init__", "lcp_physics/physics/constraints.py:Joint.move", "lcp_physics/physics/constraints.py:Joint.update_pos", "lcp_physics/physics/utils.py:cart_to_polar", "lcp_physics/physics/utils.py:polar_to_cart"]}
{"id": "C22", "title": "Polar conversion round-trips", "statement": "polar_to_cart(cart_to_polar(v)) = v for every v, the radius is the length of v and the returned angle lies in [0, 2*pi).", "quantifier": "every 2-D vector", "why_tests_cant": "continuous domain with branch cuts", "anchors": ["lcp_physics/physics/utils.py:cart_to_polar", "lcp_physics/physics/utils.py:polar_to_cart"]}
{"id": "C23", "title": "The new velocity obeys Newton's law and the constraints", "statement": "Whatever velocity v' solve_dynamics returns, with or without contacts and whether or not the LCP solver converged, there are contact and constraint impulses with M v' = M v + dt f + Jc^T l + Jf^T b + Je^T y exactly, and Je v' = 0; without contacts there are no contact impulses; a body without contacts and constraints gets M v' = M v + dt f.", "quantifier": "every world with the package's engine and callbacks, every history, every LAPACK meeting its contract", "why_tests_cant": "every number of bodies and constraints", "anchors": ["lcp_physics/physics/engines.py:PdipmEngine.solve_dynamics"]}
{"id": "C24", "title": "The cached inverse is never stale", "statement": "An engine that caches the inverse system matrix returns, in every call of every history of steps, the velocity an engine without the cache would return.", "quantifier": "every world, every history of steps with or without contacts, with static and non-static constraints, with and without post-stabilisation", "why_tests_cant": "staleness depends on history", "anchors": ["lcp_physics/physics/engines.py:PdipmEngine.solve_dynamics", "lcp_physics/physics/engines.py:PdipmEngine.post_stabilization", "lcp_physics/physics/world.py:World.__init__"]}
{"id": "C25", "title": "Circle-circle contacts are exact", "statement": "For two circles with distinct centres a contact is reported iff the gap is at most world.eps; its normal is the unit vector from body 2 to body 1, its penetration is r1+r2-distance, both contact points are the same world point, which lies midway between the two surfaces; swapping the bodies mirrors the contact.", "quantifier": "every pair of circles, every eps, every world and history, given a broad phase that reports all pairs with overlapping boxes", "why_tests_cant": "continuous domain", "anchors": ["lcp_physics/physics/contacts.py:DiffContactHandler.__call__"]}
{"id": "C26", "title": "Every reported contact is geometrically consistent", "statement": "Relied on: each contact of the default callback has a unit normal, names the same world point from both bodies (pos1+p1 = pos2+p2) and has penetration >= -world.eps. Finding: if a circle's centre lies exactly on an edge of a polygon, the normal is NaN. What holds: the guarantee is true whenever the centre lies on no edge or diagonal of the polygon (and polygons have no repeated vertices, the centres of two circles differ).", "quantifier": "every pair of bodies (circle/hull/rect in any combination), every world and history, and every single call of the callback that returns", "why_tests_cant": "continuous domain, many branches", "anchors": ["lcp_physics/physics/contacts.py:DiffContactHandler.__call__", "lcp_physics/physics/contacts.py:DiffContactHandler.test_separations", "lcp_physics/physics/contacts.py:DiffContactHandler.clip_segment_to_line"]}
{"id": "C27", "title": "get_support returns an extreme vertex", "statement": "get_support(points, direction) returns an extreme point (the last of several) and its index, and fails exactly if every dot product is below -1. Relied on: it never fails for a hull body's vertices. Finding: the constructor accepts a self-intersecting outline for which it does fail, so that building a world raises UnboundLocalError. What holds: it never fails for a convex body, in any pose and for any direction.", "quantifier": "every point list and direction; every hull that the constructor accepts and every pose", "why_tests_cant": "continuous domain; the -1 start value is a trap", "anchors": ["lcp_physics/physics/contacts.py:DiffContactHandler.get_support"]}
{"id": "C28", "title": "SAT separation is the maximum over edges and does not depend on the warm start", "statement": "test_separations(h1,h2) returns the largest edge separation of h1 from h2 if none exceeds eps, else some separation > eps, whatever last_sat_idx was; the two bodies are at least that far apart; and for strictly convex bodies the two tests together are exact: the bodies share a point iff neither value is positive.", "quantifier": "every pair of hulls, every warm-start index", "why_tests_cant": "the warm start depends on history", "anchors": ["lcp_physics/physics/contacts.py:DiffContactHandler.test_separations"]}
{"id": "C29", "title": "Segment clipping", "statement": "If some point of the segment lies in the half plane, clip_segment_to_line returns the two end points of exactly the part of the segment inside it. Relied on: otherwise it returns nothing. Finding: it returns one point, outside the segment, where the extended line crosses the boundary.", "quantifier": "every segment, plane and offset", "why_tests_cant": "continuous domain with degenerate branches", "anchors": ["lcp_physics/physics/contacts.py:DiffContactHandler.clip_segment_to_line"]}
{"id": "C30", "title": "Face clipping keeps contact points on the reference face", "statement": "Relied on: in hull-hull contacts every contact point lies on the reference edge of the reference body. Finding: for general convex hulls it may lie far outside that edge. What holds: it lies on the line of that edge, whose normal is the contact normal; and on the edge itself for polygons whose vertices have equal distance from the centre (all Rects).", "quantifier": "every pair of hulls in touching poses", "why_tests_cant": "shape-dependent; holds for rects, must be examined for general hulls", "anchors": ["lcp_physics/physics/contacts.py:DiffContactHandler.__call__", "lcp_physics/physics/contacts.py:DiffContactHandler.clip_segment_to_line"]}
{"id": "C31", "title": "get_closest is the nearest-point projection and never raises on proper simplices", "statement": "For 1, 2 or 3 affinely independent points get_closest returns the nearest point of their convex hull and never raises; the result is a mean with positive weights of exactly the ids_used points, and three points are used only if the query point is inside.", "quantifier": "every query point and every non-degenerate simplex", "why_tests_cant": "continuous domain; exhaustive case split must be proved", "anchors": ["lcp_physics/physics/contacts.py:DiffContactHandler.get_closest", "lcp_physics/physics/contacts.py:DiffContactHandler.get_barycentric_coords"]}
{"id": "C32", "title": "Circle-hull contact does not depend on the random starting vertex", "statement": "If the nearest-point loop returns, its point is the nearest point of the hull to the circle's centre, for every outcome of random.choice. Relied on: so the reported contact is the same for every outcome. Finding: if the centre lies on a diagonal of the polygon the contact (normal, penetration) differs between outcomes, by a factor of two in penetration for a square. What holds: the contact is the same if the centre is outside the polygon or on none of its edges and diagonals.", "quantifier": "every hull, circle, and every random start vertex, every number of iterations", "why_tests_cant": "randomised; all outcomes must agree", "anchors": ["lcp_physics/physics/contacts.py:DiffContactHandler.__call__", "lcp_physics/physics/contacts.py:DiffContactHandler.get_closest"]}
{"id": "C33", "title": "Contact and friction Jacobians, restitution and friction mixing", "statement": "Row i of Jc applied to v is the relative velocity of the two bodies at contact i along the normal, rows of Jf the same along the two opposite tangents; restitution and friction of a pair are the averages of the bodies' coefficients, independent of order.", "quantifier": "every list of contacts and velocity vector", "why_tests_cant": "every number of contacts and bodies", "anchors": ["lcp_physics/physics/world.py:World.Jc", "lcp_physics/physics/world.py:World.Jf", "lcp_physics/physics/world.py:World.restitutions", "lcp_physics/physics/world.py:World.mu", "lcp_physics/physics/world.py:World.E"]}
{"id": "C34", "title": "An exact LCP solution is a physical contact response", "statement": "An exact solution of the LCP is a physical contact response: normal velocity at each contact >= -e * old normal velocity, normal impulse >= 0 and complementary to it, friction impulse within the cone mu*normal impulse, of full size against a nonzero slip, and Newton's law with the external forces, contact and joint impulses. The point the solver actually returns obeys the same up to its residual.", "quantifier": "every world with contacts after every history, every exact solution, every returned point", "why_tests_cant": "every number of contacts; the G,F,h blocks are assembled by index slices", "anchors": ["lcp_physics/physics/engines.py:PdipmEngine.solve_dynamics"]}
{"id": "C35", "title": "Linear momentum is conserved", "statement": "Without external forces and one-body constraints, the total linear momentum after World.step() equals that before, even if the LCP solver has not converged.", "quantifier": "every world with any number of contacts and two-body joints, every number of interior-point iterations, exact arithmetic", "why_tests_cant": "every scene and every solver history", "anchors": ["lcp_physics/physics/engines.py:PdipmEngine.solve_dynamics", "lcp_physics/lcp/solvers/pdipm.py:forward", "lcp_physics/physics/world.py:World.Jc", "lcp_physics/physics/world.py:World.Jf", "lcp_physics/physics/world.py:World.Je"]}
{"id": "C36", "title": "Angular momentum is conserved by contact impulses", "statement": "Contact and friction impulses, and joint impulses, do not change the total angular momentum about any point: a step changes it by dt times the torque of the external forces.", "quantifier": "every world and history with ODE's contacts, or with the default callback in positions where C26 holds; without post-stabilisation for the whole step, with it for the engine's velocity", "why_tests_cant": "every scene", "anchors": ["lcp_physics/physics/world.py:World.Jc", "lcp_physics/physics/world.py:World.Jf", "lcp_physics/physics/contacts.py:DiffContactHandler.__call__"]}
{"id": "C37", "title": "Contacts do not create kinetic energy", "statement": "With exact LCP solutions and no external force, kinetic energy does not increase without contacts, with restitution 0 (with friction and constraints), and without friction if all contacts share one restitution in [0,1]; for the points actually returned up to residual times impulses and speeds; and over any number of steps the growth is at most the sum of these terms over the steps with contacts (constraints to the ground only, in the second case). Relied on: also otherwise for restitutions in [0,1]. Finding: it fails for contacts with different restitution (three discs in a row: 5 to 5.25) and for equal restitution with friction (a square on a disc: 0.625 to 0.6957).", "quantifier": "every world with non-negative masses after every history", "why_tests_cant": "every scene", "anchors": ["lcp_physics/physics/engines.py:PdipmEngine.solve_dynamics"]}
{"id": "C38", "title": "The KKT solve is correct", "statement": "solve_kkt returns the solution of the full Newton system: Q dx + G^T dz + A^T dy = -rx, (z/s) ds + dz = -rs, G dx + ds - F dz = -rz, A dx = -ry.", "quantifier": "every problem size, every right-hand side, symmetric Q, with LAPACK's contract", "why_tests_cant": "every size; LU with pivoting", "anchors": ["lcp_physics/lcp/solvers/pdipm.py:solve_kkt", "lcp_physics/lcp/solvers/pdipm.py:pre_factor_kkt", "lcp_physics/lcp/solvers/pdipm.py:factor_kkt"]}
{"id": "C39", "title": "Re-factorisation keeps the block LU valid for ever", "statement": "After pre_factor_kkt and any sequence of factor_kkt calls with arbitrary positive d (also those made by backward), the packed data and pivots are an LU factorisation of the Schur matrix for the last d.", "quantifier": "every sequence of d's, every pivot choice made by LAPACK", "why_tests_cant": "in-place update with re-pivoting: depends on history", "anchors": ["lcp_physics/lcp/solvers/pdipm.py:pre_factor_kkt", "lcp_physics/lcp/solvers/pdipm.py:factor_kkt", "lcp_physics/lcp/util.py:efficient_btriunpack"]}
{"id": "C40", "title": "Unpacked pivots reproduce the matrix", "statement": "efficient_btriunpack(LU, pivots) returns P, L, U with P a permutation matrix, L unit lower and U upper triangular and P L U equal to the matrix LAPACK factorised.", "quantifier": "every size and every pivot sequence", "why_tests_cant": "every pivot sequence", "anchors": ["lcp_physics/lcp/util.py:efficient_btriunpack"]}
{"id": "C41", "title": "Step lengths keep the iterates strictly interior", "statement": "If no component of the direction is exactly zero, moving a positive v by 0.999*get_step(v,dv) keeps v positive, get_step reaches the boundary exactly, and slacks and multipliers stay > 0 in every iteration. Relied on: for every direction. Finding: a zero component makes get_step divide by zero and return -inf; forward then produces NaN iterates and returns a wrong point (x=1.5 instead of 1 for a problem with a redundant zero constraint row).", "quantifier": "every vector size, batch and direction, every iteration; over the reals, with concrete floating-point runs for the finding", "why_tests_cant": "every direction; behaviour at dv = 0 is a corner case of IEEE division", "anchors": ["lcp_physics/lcp/solvers/pdipm.py:get_step", "lcp_physics/lcp/solvers/pdipm.py:forward"]}
{"id": "C42", "title": "The solver returns its best iterate", "statement": "forward returns, per batch element, the iterate with the smallest residual among those visited, after at most max_iter iterations, and stops early only if no element improved in the last not_improved_lim iterations, all residuals are below eps, a factorisation failed or the duality measure exceeds 1e100; slacks and multipliers of the result are positive.", "quantifier": "every problem, max_iter, not_improved_lim, eps", "why_tests_cant": "every iteration history", "anchors": ["lcp_physics/lcp/solvers/pdipm.py:forward"]}
{"id": "C43", "title": "Linear residuals never grow", "statement": "In each iteration the stationarity, inequality and equality residuals are multiplied by exactly 1-alpha; in particular the equality constraints A x = b hold exactly at every iterate, converged or not.", "quantifier": "every problem, every iteration", "why_tests_cant": "every iteration history", "anchors": ["lcp_physics/lcp/solvers/pdipm.py:forward", "lcp_physics/lcp/solvers/pdipm.py:solve_kkt"]}
{"id": "C44", "title": "Constrained bodies never leave their constraint", "statement": "A body with a TotalConstraint never moves, one with an X/Y/RotConstraint keeps that coordinate, in every step of every history, with contacts, joints and post-stabilisation and whether or not the LCP solver converged (exact arithmetic).", "quantifier": "every world, every history of steps", "why_tests_cant": "unbounded histories", "anchors": ["lcp_physics/physics/constraints.py:TotalConstraint", "lcp_physics/physics/constraints.py:XConstraint", "lcp_physics/physics/constraints.py:YConstraint", "lcp_physics/physics/constraints.py:RotConstraint", "lcp_physics/physics/engines.py:PdipmEngine.solve_dynamics", "lcp_physics/physics/world.py:World.step_dt"]}
{"id": "C45", "title": "Backward returns the derivative of the solution", "statement": "Relied on: LCPFunction.backward(dl) returns gradients whose inner product with any change of (Q,p,G,h,A,b,F) is the derivative of dl . x along the corresponding path of solutions. Finding: the backward pass solves the forward system instead of its transpose, so it is wrong when F is not symmetric, which is every problem with friction (for a sliding body the gradient of the friction coefficient has the wrong sign). What holds: for symmetric F the gradients are exact; for any F the error is the pairing of F - F^T with the multipliers' change and g_h, so they are right along every path exactly when F and its transpose agree on g_h; on well-posed problems backward returns.", "quantifier": "every batch of sized problems, every loss gradient, every differentiable curve of problems and points through the returned point along which the residuals and the products s_i z_i stay constant", "why_tests_cant": "numerical gradient checks sample directions only; must hold also for the asymmetric F built for friction", "anchors": ["lcp_physics/lcp/lcp.py:LCPFunction.backward"]}
{"id": "C46", "title": "Batch elements do not influence each other", "statement": "Relied on: solving a batch of LCPs gives each element the answer it gets when solved alone. Finding: it fails; next to another element the same problem gets x=5/3 instead of 1 (the step cap is a maximum over the whole batch, and NaN spreads), and an element whose matrix is singular makes the whole batch fail.", "quantifier": "concrete floating-point batches with the verified reference LAPACK", "why_tests_cant": "interaction appears only for particular companions", "anchors": ["lcp_physics/lcp/solvers/pdipm.py:forward", "lcp_physics/lcp/solvers/pdipm.py:get_step"]}
{"id": "C47", "title": "A small residual certifies an approximate solution", "statement": "If the reported residual of the returned point is r, each KKT equation holds up to r and s.z <= r; residual 0 means an exact solution of the mixed LCP.", "quantifier": "every problem and point", "why_tests_cant": "every point", "anchors": ["lcp_physics/lcp/solvers/pdipm.py:forward"]}
{"id": "C48", "title": "Recorder writes consecutive frames and never faster than its frame time", "statement": "For any non-decreasing sequence of record(t) calls the files written are 0.bmp,1.bmp,...; never overwritten; after a call at time t at most t/dt frames exist and the recorder lags at most one frame per call.", "quantifier": "every sequence of times", "why_tests_cant": "unbounded call histories", "anchors": ["lcp_physics/physics/utils.py:Recorder.record"]}
{"id": "C49", "title": "Free flight follows the semi-implicit Euler scheme", "statement": "A world of bodies that never come into contact and without constraints: after n steps v_n = v_0 + n dt M^-1 f and p_n = p_0 + n dt v_0 + n(n+1)/2 dt^2 M^-1 f for constant forces, and t_n = n dt.", "quantifier": "every number of bodies, every n, constant forces", "why_tests_cant": "every n", "anchors": ["lcp_physics/physics/world.py:World.step_dt", "lcp_physics/physics/engines.py:PdipmEngine.solve_dynamics", "lcp_physics/physics/bodies.py:Body.move"]}
{"id": "C50", "title": "Breakout state vector round-trips", "statement": "from_vector(to_vector(paddle, blocks, ball)) returns the parameters given, for any non-empty list of blocks; with no blocks it returns the off-screen placeholder block.", "quantifier": "every parameter set and number of blocks", "why_tests_cant": "every number of blocks", "anchors": ["experiments/breakout/run_breakout.py:to_vector", "experiments/breakout/run_breakout.py:from_vector"]}
{"id": "C51", "title": "The moment of inertia of a circle or convex hull is the true one", "statement": "For a Circle, and for a Hull or Rect whose vertices are convex (or only star-shaped about the centroid), the moment of inertia used by the simulation is mass/area times the second moment of area about the centroid, in every pose the body ever takes.", "quantifier": "every convex polygon, every mass, every history", "why_tests_cant": "all polygons of all sizes; an integral quantity", "anchors": ["lcp_physics/physics/bodies.py:Hull._get_ang_inertia", "lcp_physics/physics/bodies.py:Rect._get_ang_inertia"]}
{"id": "C52", "title": "world.contacts is current", "statement": "After the constructor and after every step, world.contacts is exactly the list the contact callback produces for the broad-phase pairs in the bodies' current poses and with no stale entry from an earlier pose.", "quantifier": "every callback that leaves the bodies alone (both shipped ones), engine, arithmetic, broad-phase answer and history", "why_tests_cant": "depends on histories (halvings, post-stabilisation, step_dt)", "anchors": ["lcp_physics/physics/world.py:World.find_contacts", "lcp_physics/physics/world.py:World.step_dt", "lcp_physics/physics/world.py:World.__init__"]}
{"id": "C53", "title": "Contact detection always returns", "statement": "find_contacts() raises no exception and its nearest-point loop ends (after at most n^2+2 rounds for an n-gon), in every pose, if every body is a circle or a strictly convex polygon and smaller than 1e9.", "quantifier": "every world whose bodies went through any history; every random choice", "why_tests_cant": "a while True loop on a continuous domain", "anchors": ["lcp_physics/physics/contacts.py:DiffContactHandler.__call__", "lcp_physics/physics/contacts.py:DiffContactHandler.get_support", "lcp_physics/physics/contacts.py:DiffContactHandler.get_closest", "lcp_physics/physics/contacts.py:DiffContactHandler.test_separations"]}
{"id": "C54", "title": "No collision is missed", "statement": "Relied on: after every step, two bodies that touch (a circle within eps of another body; two polygons that share a point) and are not excluded have a contact in world.contacts. Finding: it fails for general convex Hulls; two triangles overlapping more than 1 deep in a world with eps 0.125 get no contact, because the clipping of the incident edge uses the wrong side planes. What holds: it is true for circles against any strictly convex polygon, and for pairs of polygons whose vertices have equal distance from the centre (all Rects).", "quantifier": "every world, history and pose, given a broad phase that reports all pairs with overlapping boxes", "why_tests_cant": "all poses and histories; a miss is a silent tunnelling", "anchors": ["lcp_physics/physics/world.py:World.find_contacts", "lcp_physics/physics/contacts.py:DiffContactHandler.__call__", "lcp_physics/physics/contacts.py:DiffContactHandler.clip_segment_to_line"]}
{"id": "C55", "title": "The solver never fails on a well-posed problem", "statement": "If Q is symmetric positive definite, the equality constraints are independent and F is monotone (z.Fz >= 0), the Schur complement never becomes singular: every factorisation succeeds in every iteration and forward returns a point.", "quantifier": "every batch of well-posed problems of any size, every max_iter > 0, eps and not_improved_lim, every LAPACK pivoting", "why_tests_cant": "singularity depends on all data and on the path of iterates", "anchors": ["lcp_physics/lcp/lcp.py:LCPFunction.forward", "lcp_physics/lcp/solvers/pdipm.py:forward", "lcp_physics/lcp/solvers/pdipm.py:pre_factor_kkt", "lcp_physics/lcp/solvers/pdipm.py:factor_kkt"]}
{"id": "C56", "title": "A frictionless simulation never raises and never gets stuck", "statement": "In a world of circles and strictly convex polygons without friction, with positive masses and joints that form chains and trees without loops, to other bodies or to the world (strict_no_penetration off), every call of step() returns after every history, with at most 3 halvings, and run_world(run_time) ends with run_time <= t < run_time + dt. With strict_no_penetration on, no step and no run raises an exception.", "quantifier": "every such world, every history, every LAPACK meeting its contract", "why_tests_cant": "unbounded runs; an exception may need a rare configuration", "anchors": ["lcp_physics/physics/world.py:World.step", "lcp_physics/physics/world.py:run_world", "lcp_physics/physics/engines.py:PdipmEngine.solve_dynamics", "lcp_physics/physics/engines.py:PdipmEngine.post_stabilization"]}
{"id": "C57", "title": "The centre of mass moves with the total momentum", "statement": "In every step, halved or not, with contacts, friction, joints between bodies and post-stabilisation, the centre of mass moves by total momentum times elapsed time over total mass.", "quantifier": "every world and history", "why_tests_cant": "all contact configurations and solver outcomes", "anchors": ["lcp_physics/physics/world.py:World.step_dt", "lcp_physics/physics/engines.py:PdipmEngine.solve_dynamics", "lcp_physics/physics/engines.py:PdipmEngine.post_stabilization"]}
{"id": "C58", "title": "Post-stabilisation cancels the constraint error velocities", "statement": "The correction returned by post_stabilization is opposite to the present velocity in every constraint, and is M^-1 times normal impulses at the contacts and constraint impulses, whether or not the LCP solver converged.", "quantifier": "every world and history", "why_tests_cant": "all contact configurations and solver outcomes", "anchors": ["lcp_physics/physics/engines.py:PdipmEngine.post_stabilization"]}
{"id": "C59", "title": "No preferred origin", "statement": "Building the same scene with all bodies and anchors displaced by the same vector gives the same run, displaced: at every later state velocities, contacts, times and rotations are identical and positions differ by that vector.", "quantifier": "every world (any shapes, constraints, contact callback), every displacement, every history of calls", "why_tests_cant": "a relation between two runs over all scenes, displacements and histories", "anchors": ["lcp_physics/physics/world.py:World.__init__", "lcp_physics/physics/world.py:World.step", "lcp_physics/physics/engines.py:PdipmEngine.solve_dynamics", "lcp_physics/physics/contacts.py:DiffContactHandler.__call__", "lcp_physics/physics/constraints.py:Joint.update_pos"]}
{"id": "C60", "title": "No preferred inertial frame", "statement": "If all bodies get the same additional velocity U and no constraint ties a body's position to the ground, the run is the same seen from a moving frame: every later velocity is larger by U, every position at time t is displaced by t U, and contacts, times, impulses and rotations are identical. The constructors map displaced arguments to displaced objects.", "quantifier": "every such world, every U, every history of calls", "why_tests_cant": "a relation between two runs through the whole LCP solver, over all scenes and velocities", "anchors": ["lcp_physics/physics/world.py:World.step", "lcp_physics/physics/engines.py:PdipmEngine.solve_dynamics", "lcp_physics/physics/engines.py:PdipmEngine.post_stabilization", "lcp_physics/lcp/lcp.py:LCPFunction.forward", "lcp_physics/lcp/solvers/pdipm.py:forward"]}
{"id": "C61", "title": "How far jointed bodies drift apart", "statement": "Relied on: bodies joined by a FixedJoint keep their distance and relative angle. Finding: the distance grows in every step in which they turn, even without forces and contacts. What holds (post-stabilisation off): the relative angle is kept exactly over every history; a step that turns the pair by th multiplies the distance by sqrt(1+th^2), so it never shrinks; a point pinned to the world by a Joint moves by at most r th^2/2 in a step and by at most the sum of these over a run; the two points a two-body Joint holds together are at most r1 th1^2/2 + r2 th2^2/2 apart after a step.", "quantifier": "every world with the package's engine and callbacks, every history, every step that returns (with any contacts, forces, halvings)", "why_tests_cant": "drift accumulates over unbounded runs; the bound must hold for every scene and speed", "anchors": ["lcp_physics/physics/constraints.py:Joint.J", "lcp_physics/physics/constraints.py:FixedJoint.J", "lcp_physics/physics/constraints.py:Joint.update_pos", "lcp_physics/physics/world.py:World.step_dt", "lcp_physics/physics/bodies.py:Body.move"]}
{"id": "C62", "title": "Iterative refinement of the KKT solve", "statement": "Relied on: solve_kkt_ir (the refinement the solver's warning recommends) gives a more accurate direction with more iterations. Finding: each iteration adds the residual instead of removing it: the new residual is 2 e - eps (d' - d), never smaller than e for positive semidefinite data, and it grows without bound. What holds: without refinement the direction solves the KKT system up to eps = 1e-7 times itself, for singular problems too; solve_kkt_ir returns for all positive semidefinite Q, D and monotone F; factor_solve_kkt_reg solves its block system exactly, and factor_solve_kkt the one with the opposite sign of its C block.", "quantifier": "all sizes, matrices, right-hand sides and iteration counts", "why_tests_cant": "the sign error is invisible in a single call (the first residual is about 1e-7) and shows only as growth over iterations", "anchors": ["lcp_physics/lcp/solvers/pdipm.py:solve_kkt_ir", "lcp_physics/lcp/solvers/pdipm.py:factor_solve_kkt_reg", "lcp_physics/lcp/solvers/pdipm.py:factor_solve_kkt", "lcp_physics/lcp/solvers/pdipm.py:kkt_resid_reg"]}
{"id": "C63", "title": "Strict worlds make progress", "statement": "Relied on: with strict_no_penetration each call of step brings the simulation forward. Finding: a ball that exactly fits between two fixed balls (both overlapping it by tol) freezes the world: after 20 steps of 1/32 the clock shows less than a millionth. What holds: if all bodies that may collide overlap by at most t < tol (pairs including a circle), and the solved velocities move no point faster than s, then the step returns after finitely many halvings and advances time by dt or by more than (tol - t) / (4 s); for frictionless worlds with loop-free joints this is unconditional in the solver, after every history and with post-stabilisation. The contact callback never reports a penetration deeper than such a pair overlaps.", "quantifier": "every world with the package's engine and callback, every history, step size, speed bound and overlap bound", "why_tests_cant": "the halving loop has no bound in the code; a test that hangs or crawls does not tell for which scenes it terminates", "anchors": ["lcp_physics/physics/world.py:World.step_dt", "lcp_physics/physics/world.py:World.__init__", "lcp_physics/physics/contacts.py:DiffContactHandler.__call__", "lcp_physics/physics/bodies.py:Body.move"]}
{"id": "C64", "title": "The contact problem handed to the LCP solver is well posed", "statement": "Relied on: in every step the contact problem has exactly one answer, and World.step moves the bodies with it. Finding: it may have none - a disc between two held discs that moves off the left one (restitution 1/2) and hits the right one (restitution 1) would need a velocity both >= -1/2 and <= -1; steps return all the same, with a velocity that breaks restitution - and with friction it may have several: a disc sliding between two held discs may slide on unhindered or stop dead. What holds: the solutions of the LCP are exactly the physical responses (Newton's law, constraints, restitution, Coulomb friction), none is lost and none added; without friction there is at most one, and one exactly when some velocity obeys the constraints and every restitution at once, in particular if all contacts share one restitution; without friction the velocity returned differs from it by a kinetic energy of at most residual times impulses and speeds; without contacts it is it.", "quantifier": "every world with the package's engine and callbacks after every history, with positive masses; uniqueness also for any LCP with positive definite Q and monotone F", "why_tests_cant": "existence and uniqueness quantify over all velocities and impulses; a test sees the one answer the solver happened to return", "anchors": ["lcp_physics/physics/engines.py:PdipmEngine.solve_dynamics", "lcp_physics/lcp/lcp.py:LCPFunction", "lcp_physics/physics/world.py:World.step"]}
{"id": "C65", "title": "The LCP layer sees neither the order of the constraints nor the frame of the unknowns", "statement": "If two batches of LCPs are the same up to a rigid change of the unknowns x (a rotation, reflection or renumbering), the order in which the inequalities are listed and a rigid change of the equalities, LCPFunction answers them alike: both raise or both return, and x, the slacks and the multipliers correspond, after the same number of iterations, whether or not the solver converged. In particular listing the same contacts in another order does not change x. The gradients of backward correspond in the same way.", "quantifier": "every batch of problems of the same sizes, every orthonormal change of coordinates, every order, every solver option, every LAPACK meeting its contract; over the reals", "why_tests_cant": "orders and rotations are infinitely many, and pivoting, the Schur complement and the step lengths are computed from different matrices in the two runs; a test sees one pair of problems, up to rounding", "anchors": ["lcp_physics/lcp/lcp.py:LCPFunction.forward", "lcp_physics/lcp/lcp.py:LCPFunction.backward", "lcp_physics/lcp/solvers/pdipm.py:forward", "lcp_physics/lcp/solvers/pdipm.py:get_step", "lcp_physics/lcp/solvers/pdipm.py:factor_kkt", "lcp_physics/lcp/solvers/pdipm.py:solve_kkt"]}
{"id": "C66", "title": "What the broad phase is free to choose has no effect on a run", "statement": "Two runs of the same scene of circles that differ only in what py3ode's broad phase is free to choose (the order of the reported pairs, which geom of a pair comes first, and which pairs with disjoint boxes are reported too) either both raise or go through the same states: same time, bodies, velocities and joints, and the same contacts up to order and orientation. This holds for construction and for any sequence of World.step, World.step_dt and set_v calls, with friction, restitution, constraints, post-stabilisation and strict mode.", "quantifier": "every scene of circles whose eps attributes add up to at least the world's eps, every pair of broad phases that report each overlapping pair once, every history", "why_tests_cant": "the callback order is decided inside a C library, and a contact seen the other way round gives a different LCP; a test sees the one order its installation produces", "anchors": ["lcp_physics/physics/world.py:World.__init__", "lcp_physics/physics/world.py:World.step", "lcp_physics/physics/world.py:World.find_contacts", "lcp_physics/physics/contacts.py:DiffContactHandler.__call__", "lcp_physics/physics/engines.py:PdipmEngine.solve_dynamics", "lcp_physics/physics/engines.py:PdipmEngine.post_stabilization"]}
{"id": "C67", "title": "The order in which bodies and constraints are listed has no effect", "statement": "If the lists of bodies and constraints given to World are permuted, and velocities are given in the new order, every later state is the same with bodies, constraints and contacts listed in another order, or both runs raise. Circles, any constraints, friction, restitution, post-stabilisation, strict mode.", "quantifier": "every scene of circles as in C66, all permutations, every history, every broad phase meeting its contract", "why_tests_cant": "there are n! orders, and each gives other matrices, other pivots and other contacts' orientation; agreement must hold for the exact arithmetic of all of them", "anchors": ["lcp_physics/physics/world.py:World.__init__", "lcp_physics/physics/world.py:World.step", "lcp_physics/physics/world.py:World.set_v", "lcp_physics/physics/world.py:World.Je", "lcp_physics/physics/world.py:World.Jc", "lcp_physics/physics/world.py:World.Jf", "lcp_physics/physics/engines.py:PdipmEngine.solve_dynamics"]}
{"id": "C68", "title": "There is no preferred direction", "statement": "Turning all circles, velocities, anchors of joints and forces by one angle turns every later state by that angle: times, penetrations and angular velocities agree, positions, velocities, normals and contact points are turned; or both runs raise. X and Y constraints name axes and are excluded unless the angle is a multiple of a half turn.", "quantifier": "every angle, every scene of circles as in C66, every history", "why_tests_cant": "angles are a continuum; friction is modelled by finitely many directions, cart_to_polar cuts the plane along a half line, and boxes are aligned with the axes, so invariance is not evident from any one case", "anchors": ["lcp_physics/physics/world.py:World.step", "lcp_physics/physics/contacts.py:DiffContactHandler.__call__", "lcp_physics/physics/constraints.py:Joint", "lcp_physics/physics/utils.py:cart_to_polar", "lcp_physics/physics/engines.py:PdipmEngine.solve_dynamics"]}
{"id": "C69", "title": "The clock in double precision", "statement": "Relied on: in the doubles the simulator computes with, World.step(fixed_dt=True) ends exactly on t + dt, and run_world(world, run_time) returns. Finding: a ball bouncing off a fixed disc during the very first call leaves the clock on the double after dt; and once t reaches 2^53 dt, step returns without advancing t and run_world never returns. What holds, with any engine, callback, contacts and number of halvings: as soon as t >= dt > 0, n calls of step(fixed_dt=True) leave exactly the sum t + dt + ... + dt as doubles are added; any call ends on t + dt or the next double; without strict_no_penetration run_world returns or raises within 16 steps per dt, between run_time and run_time + dt, for run_time <= 2^48 dt, dt >= 2^-1000.", "quantifier": "every world, engine and callback in IEEE double arithmetic, whatever sin, cos and atan2 return", "why_tests_cant": "rounding depends on the 2^64 values of t and dt and on which sub-steps the contacts reject; a test sees a few sums, and never-returning cannot be observed", "anchors": ["lcp_physics/physics/world.py:World.step", "lcp_physics/physics/world.py:World.step_dt", "lcp_physics/physics/world.py:run_world"]}
{"id": "C70", "title": "Strict worlds keep bodies apart", "statement": "Relied on: in a World with strict_no_penetration=True and post_stab=False, no two bodies overlap by more than tol. Finding: two Hulls can be buried in each other by more than 2 and the constructor's own assertion accepts them, because the callback reports no contact. What holds, at every state between calls: two bodies that may collide (not joined by a joint or no_contact, broad phase meeting its contract) can be separated by a shift of length at most tol, if they are two circles, a circle of radius above tol and any strictly convex polygon, or two polygons each with its vertices equally far from its centre (Rect).", "quantifier": "every strict world with the default callback, every engine, every history of calls", "why_tests_cant": "overlap is about all points of both bodies, and the histories are unbounded; the assertion in the constructor looks only at reported penetrations", "anchors": ["lcp_physics/physics/world.py:World.__init__", "lcp_physics/physics/world.py:World.step_dt", "lcp_physics/physics/world.py:World.find_contacts", "lcp_physics/physics/contacts.py:DiffContactHandler.__call__"]}
{"id": "C71", "title": "How far bodies can pass into each other within a step", "statement": "Relied on: in a strict world bodies cannot pass through each other. Finding: a ball of radius 1 with velocity 64 is on the far side of another one after one step of 1/8; neither velocity changes and no contact is ever reported. What holds for the pairs of C70: if no point of the two bodies moves faster than y, then at every moment of a step of duration T (bodies moving with the velocities step_dt assigned) they can be separated by a shift of at most tol + y T; for two circles, at time s of the step, the squared distance of the centres is at least (r1 + r2 - tol)^2 - s (T - s) u^2, u the relative speed of the centres.", "quantifier": "every strict world with the default callback, every engine, every history, every moment of a step, every speed", "why_tests_cant": "the states in between are never computed by the code, so no test can look at them", "anchors": ["lcp_physics/physics/world.py:World.step_dt", "lcp_physics/physics/world.py:World.step", "lcp_physics/physics/bodies.py:Body.move", "lcp_physics/physics/contacts.py:DiffContactHandler.__call__"]}
{"id": "C72", "title": "Nearby velocities stay nearby", "statement": "Relied on: a small change of the initial velocities changes the state after a step by little. Finding: World.step() is discontinuous: a disc of velocity 4 heading for a disc at rest is at x = 2 at time 1/2 after the step, one of velocity 4 + d, however small d > 0, is at x = 1 + d/4 at time 1/4. What holds for the velocities PdipmEngine answers with: in the same positions, without friction and with the same restitution in [0, 1] at all contacts, the answers to two velocities are at most as far apart, in kinetic energy, as the velocities were (the returned ones up to the residuals of the solver). With different restitutions or with friction two answers can move apart.", "quantifier": "every world, configuration, external force, pair of velocities, and every restitution in [0, 1]", "why_tests_cant": "continuity and non-expansion are statements about all pairs of inputs; a test compares finitely many", "anchors": ["lcp_physics/physics/world.py:World.step", "lcp_physics/physics/world.py:World.set_v", "lcp_physics/physics/engines.py:PdipmEngine.solve_dynamics"]}
{"id": "C73", "title": "Bodies that do not touch do not influence each other", "statement": "Relied on: bodies that do not touch and are not connected by constraints do not influence each other. Finding: a ball falling with gravity 10 for one step(fixed_dt=True) of 1/2 ends with velocity 5, but with velocity 8.75, at the same time, if two other balls bump into each other 100 units away (the trial is rejected and repeated with half the time, each time adding gravity again); and the velocities of a colliding pair differ in the sixth digit when another pair, out of reach, collides at high speed. What holds, in exact arithmetic for a step of given length: whatever the other bodies of the world are, how many and how they move, a group of bodies to which no contact and no constraint leads from outside gets the same response (without friction in the group; the returned velocities up to the residuals of the solver); with friction, any response of the group combines with any response of the others to one of the world.", "quantifier": "every pair of worlds that contain the same group, every kind and number of other bodies, contacts and constraints", "why_tests_cant": "the other bodies range over an unbounded family of worlds; a test compares a few", "anchors": ["lcp_physics/physics/world.py:World.step_dt", "lcp_physics/physics/world.py:World.step", "lcp_physics/physics/engines.py:PdipmEngine.solve_dynamics", "lcp_physics/lcp/lcp.py:LCPFunction.forward"]}
{"id": "C74", "title": "The Breakout screen reader reports what is on the screen", "statement": "Relied on: the positions and sizes of paddle, blocks and ball that the screen reader hands to the world are those on the screen, and it returns for every frame. Finding: with the ball on the top line of the first block level the ball is reported as an additional block of that level and what is left of it as a ball of radius 1/2; with the ball one free column to the left of the paddle, on the paddle's line, the paddle is reported where the ball is, two pixels wide; and a frame in which a block reaches the right edge keeps the reader in its loop for ever. What holds: every scene with the ball on neither of these two lines (or far enough from the paddle), and blocks that leave the last column free, is reported exactly, whatever the remaining pixels are: paddle, all blocks level by level from left to right, ball (radius half its smaller side, at most 1); without a ball the ball is reported far outside the screen; and the reader returns for every frame, whatever its pixels, in which no level's colour reaches the last column and the brightest pixel of the paddle's line is not at the very end.", "quantifier": "every frame and every readable scene: any number and widths of blocks, any position of paddle and ball, any colours elsewhere", "why_tests_cant": "frames range over 256^(210*160) combinations; the failures need a ball on particular lines", "anchors": ["experiments/breakout/encoder.py:extract_params", "experiments/breakout/encoder.py:remove_rect", "experiments/breakout/encoder.py:get_pos_dims"]}
{"id": "C75", "title": "Impacts of two bodies follow the textbook formulas", "statement": "When a body touches only one other body (a free one that touches nothing else, or one fixed by a TotalConstraint), on the line of the contact normal through its centre, as all contacts of circles are, the response of a step of given length is the textbook impact: the normal impulse is max(0, -(u_n + e w_n)/k_n) and the tangential one is -u_t/k_t limited to mu times the normal one, where w is the relative velocity before, u the one the forces alone would produce, and k_n, k_t the sums of 1/m and of 1/m + r^2/I. In particular without friction and forces the velocities after a collision are v1 - (1+e) m2/(m1+m2) (v1-v2).n n and its counterpart with unchanged spins; a ball that hits a fixed body has its normal velocity reversed and multiplied by e and keeps the rest; and a body at rest pressed on a fixed one by a force stays on it, and rolls off without slipping exactly when the tangential force is at most mu (1 + m r^2/I) times the pressing one (tan a <= 3 mu for a disc on a slope of angle a).", "quantifier": "every world after every history, all masses, radii, velocities, spins, forces, restitutions and friction coefficients, whatever the other bodies do", "why_tests_cant": "a test checks a few collisions; the formulas quantify over all parameters and decide between the cases stick, slip and separate", "anchors": ["lcp_physics/physics/engines.py:PdipmEngine.solve_dynamics", "lcp_physics/physics/world.py:World.Jc", "lcp_physics/physics/world.py:World.Jf", "lcp_physics/physics/world.py:World.restitutions", "lcp_physics/physics/world.py:World.mu", "lcp_physics/physics/contacts.py:DiffContactHandler.__call__"]}
{"id": "C76", "title": "The simulated Breakout game", "statement": "Relied on: the world make_world builds from paddle, blocks and ball plays Breakout (the paddle stays on its line, returns the ball), and simulating a state vector for several rounds predicts the game. Finding: nothing holds the paddle on its line, so a ball that hits it pushes it down, turns it and is not returned; simulate_breakout then sets the angle to 0 but leaves the vertices turned, and raises when there are no blocks; the planner's dynamics restart every round with the same velocity of the ball, so no plan contains a bounce. What holds: make_world returns for every position read off a readable frame and its bodies fill exactly the pixels of paddle and blocks and the walls, roof and stoppers; in every game, whatever actions are played, these stay where they are, contacts are only between the ball and paddle, walls, roof or blocks and between the paddle and stoppers or blocks, no exception is raised, each action takes one unit of time, what touches nothing moves exactly by its velocity (the paddle by action times paddle velocity), and the state vector is that of the new positions with the sizes and blocks the game was made with; run_breakout's loop plays the given actions in order, then -0.1, one per unit of time, until run_time is reached; and as long as ball and paddle stay well away from everything, every action returns after one round of motion in straight lines and the planner's repeated simulation of the state vector gives exactly these positions.", "quantifier": "every position, every number of blocks, every sequence of actions, every run time, every LAPACK meeting its contract, every broad phase", "why_tests_cant": "a test plays a few games; the claims are about all positions and unbounded games", "anchors": ["experiments/breakout/encoder.py:make_world", "experiments/breakout/encoder.py:run_breakout", "experiments/breakout/encoder.py:step_breakout", "experiments/breakout/run_breakout.py:simulate_breakout", "experiments/breakout/run_breakout.py:mpc"]}
{"id": "C77", "title": "Units of mass and time do not matter", "statement": "Relied on: describing the same scene in other units (masses c times as large, times tau times as long; velocities, forces, gravity and dt converted) gives the same motion; in particular, with only Gravity as a force, multiplying all masses by c changes nothing. Finding: not when bodies collide: the engine's solver compares residuals of different units with each other and with fixed numbers, so two colliding discs of mass 1 bounce as they should and two discs of mass 1024 run on into each other. What holds: as long as nothing touches, every history of calls gives the same positions and angles, velocities divided by tau and times multiplied by tau, with any constraints and shapes; with contacts, constraints and friction the physically correct responses correspond, with impulses multiplied by c/tau; the constructors of bodies, constraints and forces turn the converted arguments into the converted objects (moments of inertia follow the mass).", "quantifier": "every c, tau > 0, every scene, force, history, every LAPACK meeting its contract, every broad phase", "why_tests_cant": "a test compares a few runs in two systems of units; the correspondence is claimed for all units, scenes and histories", "anchors": ["lcp_physics/physics/engines.py:PdipmEngine.solve_dynamics", "lcp_physics/physics/world.py:World.step_dt", "lcp_physics/physics/bodies.py:Circle", "lcp_physics/physics/bodies.py:Hull", "lcp_physics/physics/bodies.py:Rect", "lcp_physics/physics/forces.py:Gravity", "lcp_physics/lcp/lcp.py:LCPFunction.forward"]}
{"id": "C78", "title": "What the Breakout planner minimises", "statement": "Relied on: mpc asks the paddle to be under the ball when the ball arrives, with small controls; losing the ball is expensive; the chosen action moves the paddle the way the plan does. What holds: the planner gets one cost matrix per frame, and any state and control cost the squared horizontal distance of paddle and ball if the ball is to be followed at that frame, plus lambda_a times the squared control, plus ten times the squared height of the ball if vert_cost is set; a ball that comes down is followed until one frame after it reaches the paddle's line, one that has passed it for at most two frames, one that rises or rests only if it is off the screen and centering is on; the velocity handed over is the displacement since the last frame; action 3 is sent when the plan moves the paddle left by at least the threshold, 2 when right, 0 otherwise; and the cost of a whole plan in which nothing comes near anything is the sum of these terms along the predicted straight lines. Finding: the ball is placed far below the screen when it is lost, to make that expensive, but the cost does not depend on the ball's height in run_breakout: a state without the ball can cost 0.", "quantifier": "every position, number of blocks, horizon, velocity, control, plan, every solver", "why_tests_cant": "the cost is an n x n matrix per frame; a test evaluates it at a few states", "anchors": ["experiments/breakout/run_breakout.py:mpc", "experiments/breakout/run_breakout.py:get_action", "experiments/breakout/run_breakout.py:run_breakout", "experiments/breakout/run_breakout.py:PADDLE_VEL_ADJUST"]}
{"id": "C79", "title": "Scenes in equilibrium stay at rest", "statement": "In a scene at rest without friction the bodies stay at rest in the exact response to a step exactly if the external forces do no positive work in any motion the joints and contacts allow (virtual work), and that is so exactly if contacts that only push and the constraints can carry the forces; the velocities the engine really returns then have a kinetic energy of at most its residual times explicit impulses and velocities. Without contacts, accelerations that satisfy d'Alembert's principle are the ones applied; a scene in equilibrium stays exactly where it is for any number of steps; and a structure in balance stays while other bodies coast beside it.", "quantifier": "every scene reachable in a session, every force law, number of bodies, joints and steps", "why_tests_cant": "a test checks that one stack or one pendulum does not move for some steps; the characterisation quantifies over all possible motions", "anchors": ["lcp_physics/physics/engines.py:PdipmEngine.solve_dynamics", "lcp_physics/physics/world.py:World.step", "lcp_physics/physics/world.py:World.apply_forces", "lcp_physics/physics/constraints.py:Joint.J"]}
{"id": "C80", "title": "The mass-inference experiment before the impact", "statement": "Relied on: the loss of the inference experiment tells masses apart. What holds: make_world succeeds for every mass and number of links, with the links hanging one below the other, equal shares of the mass, the default restitution and friction (restitution 1 for the projectile), and the weight on every link but the first; positions_run_world records the start and one frame after each step; as long as the projectile has not come within the contact distance the links stay exactly where they were and the projectile follows its forces; with hor_impulse it moves at 150 after three steps and arrives after the 44th; the loss is never negative and is 0 exactly if the frames agree over their common length. Finding: until then the frames do not depend on the mass, so the loss is 0 for every two masses; and the first link gets no gravity.", "quantifier": "every mass, number of links, force functions, run time before the impact, every broad phase and every correct LAPACK", "why_tests_cant": "the masses and the number of links are continuous and unbounded; a test runs one chain", "anchors": ["experiments/inference.py:make_world", "experiments/inference.py:positions_run_world", "experiments/inference.py:hor_impulse", "experiments/inference.py:main"]}
{"id": "C81", "title": "Bodies held together by FixedJoints are one rigid body", "statement": "Relied on: bodies connected by FixedJoints behave like one rigid body. In the velocities of every step they do: the bodies move as one rigid body, and it obeys Newton's and Euler's laws with the total mass, the moment of inertia about the common centre (parallel axes), the sum of the forces and torques on the bodies and the impulses of their contacts; untouched it responds exactly like a single body with these totals; weights do not turn it. Finding: over several steps a spinning assembly that nothing pushes or touches slows down: bodies move along tangents (see C61), so the moment of inertia grows by th^2 times the spread in a step that turns the assembly by th, and since angular momentum is kept the angular velocity falls.", "quantifier": "every scene reachable in a session, every set of bodies connected by FixedJoints and to nothing else, every force law, contacts included", "why_tests_cant": "assemblies of any number of bodies and any tree or cycle of joints; the loss of spin is a second-order effect a test tolerance hides", "anchors": ["lcp_physics/physics/constraints.py:FixedJoint", "lcp_physics/physics/engines.py:PdipmEngine.solve_dynamics", "lcp_physics/physics/world.py:World.step_dt", "lcp_physics/physics/world.py:World.Je"]}
{"id": "C82", "title": "Free bodies follow Newton's motion to first order in dt", "statement": "Relied on: a body under external forces follows Newton's motion, the more closely the smaller dt. For every force law of time whose acceleration is at most A and changes at most at rate L, after a run of time T without contacts the velocity differs from Newton's by at most dt L T/2 and the pose by at most dt (A T/2 + L T (T+dt)/4), in each coordinate; so simulations converge to Newton's motion as dt goes to 0. For a constant force the velocity is exact and the pose is a T dt/2 too far. Finding: the energy of a body in free fall is not kept: it falls by m |a|^2 T dt/2.", "quantifier": "every force law of time, every number of steps, every dt, all scenes in which the body meets nothing and belongs to no constraint", "why_tests_cant": "convergence is a statement about all step sizes and all force laws; a test compares one run with a tolerance", "anchors": ["lcp_physics/physics/world.py:World.step_dt", "lcp_physics/physics/engines.py:PdipmEngine.solve_dynamics", "lcp_physics/physics/bodies.py:Body.move", "lcp_physics/physics/forces.py:ExternalForce"]}
{"id": "C83", "title": "The ODE contact callback agrees with the default one for circles", "statement": "Relied on: OdeContactHandler and the default DiffContactHandler may be exchanged. Finding: with the same eps the ODE callback reports contacts up to a gap of 2 eps, the default one up to eps; and the ODE callback treats every Hull as the disc through its farthest vertex, so that a strict world with two Hulls half a unit apart raises 'Interpenetration at start'. What holds: in strict worlds of Circles a run with the ODE callback and eps is, whatever the forces, constraints and calls, the same as a run with the default callback and 2 eps: same poses, velocities, contacts and clock, or the same exception.", "quantifier": "every list of circles, constraints and forces, every history of calls; every call of the callback on Hulls and Circles", "why_tests_cant": "equality of two implementations over whole histories; tests compare some positions with a tolerance", "anchors": ["lcp_physics/physics/contacts.py:OdeContactHandler.__call__", "lcp_physics/physics/contacts.py:DiffContactHandler.__call__", "lcp_physics/physics/bodies.py:Hull._create_geom", "lcp_physics/physics/world.py:World.step_dt"]}
{"id": "C84", "title": "Simulations with friction do not fail", "statement": "Relied on: step and run_world return also when bodies have friction (C56 covers fric_coeff = 0 only). Finding: with friction the linear systems of the interior-point solver can be singular: a disc on a lever that touches a held disc with friction 1 wedges, and for some positive weights the system has no solution. What holds: a step from any reached state returns if the contacts do not influence each other and none of them wedges (a push along the normal opens the contact at least mu times as fast as it makes it slide); with a single contact that condition is exact. Contacts between unconstrained discs and bodies held by a TotalConstraint never wedge, so simulations where every disc can touch at most one other body (two bodies; any number of discs on a floor that ignore each other) never raise, for any friction coefficients, forces, velocities and number of steps, and run_world ends.", "quantifier": "every list of convex bodies with non-negative friction coefficients and loop-free constraints, every history of calls, every number of further steps", "why_tests_cant": "that no state of any run makes the solver fail is a statement about infinitely many linear systems; a test meets finitely many, all of them well-behaved", "anchors": ["lcp_physics/physics/world.py:World.step", "lcp_physics/physics/world.py:run_world", "lcp_physics/physics/engines.py:PdipmEngine.solve_dynamics", "lcp_physics/lcp/solvers/pdipm.py:forward"]}
{"id": "C85", "title": "Left and right are alike, and a symmetric scene stays symmetric", "statement": "The mirror image of a scene of circles (positions, velocities, joint anchors and forces mirrored, spins reversed) goes through the mirror images of the states, friction included, or both runs raise; it does not matter which identities the bodies have. So a scene that is its own image under a rotation or a reflection, possibly with bodies changing places, is its own image after every history of calls: a body on the mirror line that is its own image stays on it and does not begin to spin, and a body in the centre of a rotationally symmetric scene never moves.", "quantifier": "every list of circles, every joint and constraint (X and Y constraints if the axes are kept), every force, friction and restitution, every history of step and set_v calls, every reflection and rotation about the origin, every order of the lists", "why_tests_cant": "a test compares one scene with one mirror image for a few steps; a preferred direction (the sign of the tangent, the order of the friction directions, the body taken first) shows only in particular arrangements", "anchors": ["lcp_physics/physics/world.py:World.step", "lcp_physics/physics/world.py:World.Jf", "lcp_physics/physics/contacts.py:DiffContactHandler.__call__", "lcp_physics/physics/engines.py:PdipmEngine.solve_dynamics", "lcp_physics/physics/constraints.py:Joint"]}
{"id": "C86", "title": "Gradients through a collision", "statement": "Relied on: the derivative of simulated positions with respect to initial positions and velocities (what backward() through a run returns, where the run is differentiable) approximates the derivative of the real motion when dt and eps are small. Finding: it does not once a collision has happened. A ball hits a ball at rest, with exact contact responses: the simulated positions converge to the real ones with eps and dt, but their derivatives with respect to the initial position of the first ball are 1 and 0 after the collision, for every dt, eps and tol, where the real ones are 1 - (1+e)m2/(m1+m2) and (1+e)m1/(m1+m2); for elastic balls of equal mass 0 and 1. The derivatives with respect to the velocity count only the time since the contact was noticed instead of the whole time. What holds: the positions are right up to (1+e)(eps + u dt); the derivatives with respect to the mass and the restitution of the first ball are right up to a constant times eps + u dt, through the collision; and before the contact is noticed all derivatives are right.", "quantifier": "every radius, mass, restitution and friction, every dt, eps and tol with u dt <= eps + tol, every start, every number of steps, every engine that answers with exact responses", "why_tests_cant": "a test compares a gradient with finite differences of the simulation, which agree with it; that both disagree with the motion being simulated, however small the step, is a statement about limits", "anchors": ["lcp_physics/physics/world.py:World.step", "lcp_physics/physics/world.py:World.step_dt", "lcp_physics/physics/contacts.py:DiffContactHandler.__call__", "lcp_physics/physics/engines.py:PdipmEngine.solve_dynamics", "demos/grad_demo.py:grad_demo"]}
{"id": "C87", "title": "What is found depends on where the bodies are, not on what was found before", "statement": "Relied on: the contacts of a world are a function of the poses of its bodies, so looking again, or building a second World from the same bodies, finds the same contacts and continues the same motion. Finding: it fails in a tie. Hulls remember the edge that was last found to separate them (from any partner), the next search starts there, and of two edges that are equally far the first one met wins: a second World built from the same squares in the same poses sees a corner overlap with another normal, and the same calls then give other velocities. What holds: in poses without ties (for two polygons, no two edges of one equally the furthest from the other; for a circle whose centre is inside a polygon, one nearest edge and not on a chord) two simulations with whatever pasts, engines and velocities have the same contacts up to order, and looking again changes neither contacts, poses nor velocities.", "quantifier": "every simulation reachable through the constructor, steps and set_v, every engine, every past; every broad phase that reports the same pairs for the same geoms", "why_tests_cant": "a test runs one history for a scene; the remembered edge is invisible in the API and only matters in poses where it breaks a tie", "anchors": ["lcp_physics/physics/contacts.py:DiffContactHandler.__call__", "lcp_physics/physics/contacts.py:DiffContactHandler.test_separations", "lcp_physics/physics/bodies.py:Hull", "lcp_physics/physics/world.py:World.find_contacts"]}
{"id": "C88", "title": "Each iteration of the LCP solver is a predictor-corrector step", "statement": "Every iteration of the interior-point solver moves every problem of the batch along the direction of Mehrotra's method: the predictor is Newton's direction for zero residuals and s_i z_i = 0; the direction taken is Newton's direction for zero residuals and s_i z_i = sigma mu - (ds dz)_i of the predictor, with mu = s.z/n and sigma the cube of the factor by which the predictor, followed as far as slacks and multipliers stay non-negative, would reduce s.z. It is followed for 0.999 of the distance to the boundary when that is below 1, and between 0.999 and 1 otherwise. So s.z changes to (1 - alpha (1 - sigma)) s.z - alpha (predictor ds.dz) + alpha^2 ds.dz.", "quantifier": "every batch of problems of equal sizes, every iteration without an exactly zero direction component", "why_tests_cant": "the directions are internal to a call; a wrong complementarity row still drives the linear residuals down and often converges, only slower or to a worse point", "anchors": ["lcp_physics/lcp/solvers/pdipm.py:forward", "lcp_physics/lcp/solvers/pdipm.py:solve_kkt", "lcp_physics/lcp/solvers/pdipm.py:get_step", "lcp_physics/lcp/solvers/pdipm.py:factor_kkt"]}
{"id": "C89", "title": "A run can be interrupted and resumed", "statement": "Relied on: World.save_state/load_state raise NotImplementedError, so a run is interrupted by keeping the bodies and constraints and resumed by World(bodies, constraints, ...) with the same settings; the resumed run is the continuation of the old one. Finding: it is not when a force depends on time. The new world's clock starts at 0 and cannot be set, so hor_impulse and its like act again. Also a remembered tie (C87) can change the contacts. What holds: if the force objects are shifted by the old world's time, and the new world's first look at the scene gives what the old world saw last (always with ODE's callback and with circles), then every further sequence of step, step_dt and set_v has the same outcome in both: the same bodies, joints, velocities, contacts, or the same exception, with clocks that differ by the old world's time. Nothing else (cached inverse, joint angles, mass matrix, constraint rows) is lost; without post-stabilisation the constructor's assertion cannot fail on the saved state", "quantifier": "every session with the package's engine and callbacks, any history, any later calls; every LAPACK; broad phase, narrow phase and random.choice that answer the same question in the same way", "why_tests_cant": "a test resumes one scene at one time; which hidden state survives is a statement about all states of a world", "anchors": ["lcp_physics/physics/world.py:World.__init__", "lcp_physics/physics/world.py:World.save_state", "lcp_physics/physics/world.py:World.step_dt", "lcp_physics/physics/forces.py:ExternalForce", "lcp_physics/physics/engines.py:PdipmEngine.solve_dynamics"]}
{"id": "C90", "title": "The gradient demo follows the gradient of the distance it measures", "statement": "Relied on: demos/grad_demo.py improves the push on the first ball until the second ball comes near the target, and prints at the end the distance the learned push achieves. Finding 1: when the pushed ball misses the other one, the measured distance does not depend on the push, its gradient is exactly 0, and the demo stops in its second round with the push it began with (all pushes of size at most 1, and all pushes away from the ball; the shipped push of 3 reaches it). Finding 2: the number printed at the end is computed from the bodies of the last training round, so it belongs to the push before the last update, not to the run just shown. What holds: while the pushed ball misses, the world is made and run, and all bodies are where Newton's law puts them at every time; the last run uses the last push.", "quantifier": "every initial push, any number of steps, every gradient the autograd may return, every LAPACK and broad phase; the second finding for every engine and contact callback", "why_tests_cant": "a test runs one push; that the derivative vanishes on a whole region, and that the loop then stops, is a statement about all pushes", "anchors": ["demos/grad_demo.py:grad_demo", "demos/grad_demo.py:make_world", "lcp_physics/physics/world.py:run_world", "lcp_physics/physics/forces.py:ExternalForce"]}
{"id": "C91", "title": "Coulomb's law of sliding: a block on a slope stays or slides as in the textbook", "statement": "A body that stands on fixed bodies (all its feet on one surface, feet on both sides far enough out that friction does not tip it) and slides along the surface without spin keeps standing: after a step it has no spin, does not lift, and its speed is the one it would have without friction brought towards 0 by at most friction coefficient times pressing impulse over mass. A body at rest stays at rest exactly if the force along the surface is at most the friction coefficient times the pressing force. Under gravity alone this is the inclined plane: it rests exactly if the tangent of the slope is at most the friction coefficient, and mass and strength of gravity do not matter. For the point the solver actually returns, the kinetic energy of a body that should rest is at most proportional to the solver's residual. The contacts DiffContactHandler finds for two polygons have one normal and lie on one line across it on both bodies, so the feet of a polygon on an edge are on one surface.", "quantifier": "all worlds reached by any history, any number of feet and other bodies, every force on the centre that presses, every speed, friction coefficient, mass, inertia, step length; the contact statement for any two polygons", "why_tests_cant": "a simulation checks one angle, one friction coefficient and one mass; the threshold is an equivalence over all of them", "anchors": ["lcp_physics/physics/engines.py:PdipmEngine.solve_dynamics", "lcp_physics/physics/world.py:World.Jf", "lcp_physics/physics/world.py:World.mu", "lcp_physics/physics/contacts.py:DiffContactHandler", "demos/demo.py:slide_demo"]}
{"id": "C92", "title": "The paddle's velocity is learned from episodes of the game", "statement": "Relied on: learn_params.infer_params finds the velocity with which the paddle of the game answers the controls, and that velocity can be handed to run_breakout. Finding: run_breakout multiplies the velocities it is handed by -1, learn_params does not; handed the learned velocity (as in the lines of learn_params.py for testing while training) the planner expects the paddle to go right when the action it sends moves it left. What holds: while the simulated paddle keeps away from everything, the loss of an episode is the mean square of the differences between the paddle moved by velocity times control and the one on the frames; if the game's paddle moves by u per unit of control the loss is 0 exactly at (u, 0) and its gradient is proportional to the error; with that gradient a step of the optimiser moves each velocity by at most 0.3, towards the target; infer_params returns, and what it returns is no further from (u, 0) than the random start or 0.3.", "quantifier": "all readable frames, random numbers, initial velocities, episodes, LAPACKs and broad phases", "why_tests_cant": "the loss goes through the screen reader, the simulator and the solver; a test sees one random run, not the closed form of the loss nor a bound over all runs", "anchors": ["experiments/breakout/learn_params.py:infer_params", "experiments/breakout/run_breakout.py:simulate_breakout", "experiments/breakout/run_breakout.py:run_breakout", "experiments/breakout/run_breakout.py:get_action"]}
{"id": "C93", "title": "The search for the mass in the mass-inference experiment", "statement": "Relied on: inference.py's search reports what it did, follows the gradient of the loss and finds the mass of the chain. Finding: (a) a guess that cannot be told from the truth is returned with the final loss 0; before the projectile arrives that is every guess; (b) the first step of the optimiser has length 5 whatever the slope, so from a guess in [0, 1) a positive slope leads below -3, and a world with links of negative mass is built without complaint; (c) the guess 0, which torch.rand can return, makes the first simulation raise. What holds: the final loss belongs to the final mass; entry k of loss_hist is the loss at entry k of mass_hist; losses that follow each other differ by at least 1e-3; there are at most 100 iterations, and fewer only if the loss at the last recorded mass is within 1e-3 of the last recorded loss; each mass follows from the one before by a step of at most 5 against the slope; what is handed to the optimiser is the derivative of the loss if the simulator's derivatives are; the true mass is kept.", "quantifier": "all forces, numbers of links, durations, masses, guesses, engines and contact callbacks (for what is reported); all sane broad phases and LAPACKs (for the findings)", "why_tests_cant": "the guess is random and each loss takes a simulation of 300 steps; a test sees one trail of the search, not what all of them have in common", "anchors": ["experiments/inference.py:main", "experiments/inference.py:make_world", "experiments/inference.py:positions_run_world"]}
{"id": "C94", "title": "slide_demo until the block lands", "statement": "slide_demo builds its world without an exception: a plane of 900 x 10 and a block of 60 x 60, each of mass 1 with friction 0.15 and restitution 0.5, and one constraint, which holds the plane. Run without display, it shows the plane, turned by pi/32 about (500, 300), at rest, and the block in free fall from (100, 100): after k <= 46 steps at height 100 + k(k+1)/18 with velocity 10k/3, without contacts and without an exception. A 47th step of the fall would put the block's corner into the plane. The plane is flatter than the angle of repose for the friction coefficient of the demo (see C91).", "quantifier": "all numbers of steps up to 46, all durations, sane broad phases and LAPACKs", "why_tests_cant": "what the demo shows is checked by looking at it; a test would run it with one broad phase and one LAPACK", "anchors": ["demos/demo.py:slide_demo", "lcp_physics/physics/world.py:run_world", "lcp_physics/physics/world.py:World.step"]}
{"id": "C95", "title": "Joined bodies fall as one", "statement": "Bodies joined to each other (Joint, FixedJoint) that have one velocity, do not turn and fall with one acceleration (equal Gravity, whatever the masses) stay as they are relative to each other: after any number of steps without contacts every body has moved by the vector by which a body alone falls, none has turned, and they have one velocity; the joints neither drift nor pull. If the joints form no loops the run ends without an exception. fixed_joint_demo: two blocks of 60 x 60 held together by a FixedJoint above a fixed plane; for 75 steps the two blocks fall side by side above the plane, which stays in its place.", "quantifier": "all scenes of bodies with joints between them, common velocities and accelerations, numbers of steps, sane broad phases and LAPACKs, with and without post-stabilisation", "why_tests_cant": "a test sees a few bodies for a few steps and has to allow a tolerance for drift; the claim is that there is none (over the reals) for any number of bodies and steps", "anchors": ["demos/fixed_joint_demo.py:fixed_joint_demo", "lcp_physics/physics/constraints.py:FixedJoint", "lcp_physics/physics/constraints.py:Joint", "lcp_physics/physics/world.py:run_world"]}
{"id": "C96", "title": "What World's constructor accepts", "statement": "Relied on: World(bodies, constraints, strict_no_penetration=True) raises an AssertionError exactly when two bodies of the scene that may collide overlap by more than the tolerance. Finding: with general Hulls it also raises for scenes without overlaps; two triangles on different sides of a line get a contact with a penetration of 0.79, because clipping the incident edge to the second side plane extrapolates. What holds: an empty list of bodies is an IndexError, a constraint on a body outside the list a ValueError; without the flag every scene of convex bodies in detection's range is accepted; the flag changes nothing but the check (same bodies, contacts, velocities, or AssertionError if a contact is deeper than the tolerance); and for Circles and Rects (Circles larger than the tolerance beside Rects) the relied-on claim is true: accepted if all overlaps are at most the tolerance, AssertionError if one is more.", "quantifier": "all lists of bodies and constraints, tolerances, broad phases that are sane and complete; the finding is one scene in binary64", "why_tests_cant": "a test builds a few scenes; neither that all shallow scenes are accepted nor that no deep one is can be settled by examples, and the wrong refusal needs an unusual pair of triangles", "anchors": ["lcp_physics/physics/world.py:World.__init__", "lcp_physics/physics/world.py:World.find_contacts", "lcp_physics/physics/contacts.py:DiffContactHandler", "lcp_physics/physics/bodies.py:Rect", "lcp_physics/physics/bodies.py:Circle"]}
{"id": "C97", "title": "The reported penetration is the overlap", "statement": "After any sequence of calls on a world, the penetrations of the contacts between two bodies that may collide tell their overlap: none is above t exactly when some direction exists in which a shift by t separates the bodies. For two Circles, two Rects (any sizes, positions and rotations), and a Rect with a Circle of a larger radius than t.", "quantifier": "all histories of worlds, pairs of bodies, depths t >= 0, sane and complete broad phases", "why_tests_cant": "the overlap is a minimum over all directions and all pairs of points; a test can only compare single scenes with hand-computed numbers", "anchors": ["lcp_physics/physics/contacts.py:DiffContactHandler.__call__", "lcp_physics/physics/contacts.py:DiffContactHandler.test_separations", "lcp_physics/physics/contacts.py:DiffContactHandler.get_incident_edge", "lcp_physics/physics/contacts.py:DiffContactHandler.clip_segment_to_line"]}
{"id": "C98", "title": "No preferred direction, whatever the shapes", "statement": "Turning a scene of Circles, Rects and Hulls about the origin (poses, velocities, anchors of constraints, forces) turns everything that follows: contact detection between any two bodies of any shapes finds the turned contacts with the same penetrations or raises the same error, and any sequence of steps and set_v calls leads to the turned state, contacts included, or raises in both scenes. Assumed of the broad phase: it reports the same candidate pairs for the turned scene. XConstraint and YConstraint name axes and are only allowed for multiples of a half turn.", "quantifier": "all angles, bodies of all shapes (convex or not), vertices random.choice starts from, constraints, forces and call sequences", "why_tests_cant": "a test compares a few angles in floating point, where thresholds and ties of the contact code hide a preferred axis", "anchors": ["lcp_physics/physics/contacts.py:DiffContactHandler", "lcp_physics/physics/bodies.py:Hull.set_p", "lcp_physics/physics/bodies.py:Rect", "lcp_physics/physics/world.py:World.step", "lcp_physics/physics/engines.py:PdipmEngine", "lcp_physics/physics/utils.py:left_orthogonal", "lcp_physics/physics/utils.py:rotation_matrix"]}
{"id": "C99", "title": "The chain of chain_demo hangs still until it is hit", "statement": "chain_demo builds its world without an exception, with the ten rectangles, the projectile, the clock, the surfaces, constraints and forces its code names. run_world, whatever the broad phase, then shows for the first 33 steps the rectangles exactly where they were built and at rest, the projectile pushed for three steps and then at velocity 200, and the clock turning in place; there are no contacts and no exceptions. After the 34th step the projectile would be against the side of the last rectangle.", "quantifier": "all broad phases that report pairs of different bodies, LAPACK results that solve their systems, numbers of steps up to 33", "why_tests_cant": "a test sees one run in floating point, where gravity on nine hinged rectangles gives a residual motion that has to be tolerated by a threshold", "anchors": ["demos/demo.py:chain_demo", "lcp_physics/physics/forces.py:hor_impulse", "lcp_physics/physics/constraints.py:Joint", "lcp_physics/physics/constraints.py:XConstraint", "lcp_physics/physics/constraints.py:YConstraint", "lcp_physics/physics/world.py:run_world"]}
{"id": "C100", "title": "debug_demo and fric_demo move as their forces say until something touches", "statement": "debug_demo and fric_demo build their worlds without an exception, with the bodies, surfaces, constraints and forces their code names. run_world, whatever the broad phase, then shows in debug_demo for the first 24 steps the two pushed balls and the two falling balls on their ways, the square turning and rising, and every other body, constrained or not, exactly where it was built; in fric_demo for the first 3 steps the plate and the ball above it falling together and the two constrained discs at rest; there are no contacts and no exceptions. After the 25th step of debug_demo the pushed balls would be against those below; after the 4th of fric_demo the plate would be nearer than eps to the discs.", "quantifier": "all broad phases that report pairs of different bodies, LAPACK results that solve their systems, numbers of steps up to 24 and 3", "why_tests_cant": "a test sees one run in floating point with one broad phase, and compares the places it looks at up to a threshold", "anchors": ["demos/demo.py:debug_demo", "demos/demo.py:fric_demo", "lcp_physics/physics/forces.py:vert_impulse", "lcp_physics/physics/forces.py:Gravity", "lcp_physics/physics/constraints.py:TotalConstraint", "lcp_physics/physics/world.py:run_world"]}
{"id": "C101", "title": "Bodies that stay clear of each other move as if they were alone", "statement": "Relied on: bodies further apart than eps do not affect each other. What holds: a strict World accepts bodies that exclude each other or have more than eps of room between them. While the bodies, each on its own way (held at rest by joints in balance, or coasting under its external forces), keep more than eps of room, run_world shows exactly these ways, with no contacts and no exceptions, however many bodies there are and however they turn. Room means: for a circle and another body, a strip wider than eps between them in any direction (so discs around them that are further apart suffice); for two polygons, a strip along an edge of one of them. Bodies with room have no two points within eps of each other. Finding: for two polygons a distance above eps is not enough: two squares of side 2, corner to corner and more than eps apart, are given a contact, because the second clipping of the incident edge extrapolates it back to the reference edge; in the mirror image they have none.", "quantifier": "all scenes of circles and strictly convex polygons with loop-free joints, all force laws of time, numbers of steps, broad phases that report pairs of different bodies, LAPACK results that solve their systems", "why_tests_cant": "a test runs a few scenes, with poses in floating point, for a few steps and one broad phase", "anchors": ["lcp_physics/physics/contacts.py:DiffContactHandler", "lcp_physics/physics/contacts.py:test_separations", "lcp_physics/physics/contacts.py:clip_segment_to_line", "lcp_physics/physics/world.py:World", "lcp_physics/physics/world.py:run_world", "lcp_physics/physics/engines.py:PdipmEngine"]}
