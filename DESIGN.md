# Formal model of lcp-physics in Rocq/Coq 8.16: design

## 1. Shape of the model

One shallow, executable Gallina model, file by file after the Python sources
(`/repo/lcp_physics/...`), written once and *polymorphic in the arithmetic*: every
definition takes a record `Num T` of operations (`+ - * / sqrt sin cos atan2 < <= ==`
and literals).  It is instantiated at

* `R`  (Coq's reals; comparisons decided by `Rlt_dec`): the exact-arithmetic reading,
  in which the numerical theorems are proved;
* `float` (Coq's primitive IEEE-754 doubles, the dtype `Defaults.DTYPE = torch.double`):
  executable with `vm_compute`, used for refutations that depend on IEEE behaviour
  (inf/nan) and for running the model on concrete scenes.

Control-flow theorems (group 1 of section 3) are proved for *every* `Num T` without any law,
hence also for IEEE doubles.

* Exceptions are values: `res A := Ok a | Err e`.  `while True` loops run on explicit fuel;
  running out of fuel is the separate error `EFuel` (it stands for "has not returned yet").
  Partial-correctness theorems talk about runs that return `Ok`; the totality theorems (C05,
  C53, C55, C56) show that there is a bound on the fuel after which `EFuel` never occurs.  More fuel never changes a result
  (`exec_fuel`, FuelFacts.v).
* Objects become records; the functions return updated records.  Bodies are referred to by
  their index in `world.bodies` (as `World.joints` and `geom.body` do).
* External code is a record of functions (an oracle), never an axiom: ODE's broad phase
  (`space.collide`), ODE's narrow phase for `OdeContactHandler`, `random.choice`, LAPACK
  (`btrifact`, `btrisolve`, `torch.inverse`).
* Histories: `Spec.v` defines `op` (step, step with fixed dt, step_dt, set_v) and `exec`;
  "after every history" means: for every list of ops, of any length, from a constructed world.

Files (`rocq/theories/`):

* model, definitions only: `Num Tensor Utils Bodies Forces Constraints Contacts World Lapack
  Pdipm KktIr Lcp Engines Breakout Screen Game Plan Infer GradDemo Learn Search Demo`;
* specification vocabulary, independent of the model's helpers: `Spec GeoSpec BodySpec
  ContactSpec JointSpec RewindSpec FreshSpec EngineSpec KktSpec LapackSpec PdipmSpec GradSpec
  BoostSpec DriftSpec IrSpec StrictSpec WellSpec SymSpec SceneSpec GroupSpec ImpactSpec ScreenSpec GameSpec ScaleSpec EnergySpec PlanSpec StaticsSpec InferSpec AssemblySpec NewtonSpec OdeSpec DiscSpec RegSpec FricSpec BilliardSpec DetectSpec MehrotraSpec ResumeSpec GradDemoSpec SlopeSpec LearnSpec SearchSpec RmsSpec DemoSpec FallSpec AcceptSpec TurnSpec ChainSpec ScatterSpec ApartSpec FloatSpec`;
* property theorems: `PropBody PropContact PropDrift PropEngine PropFrame PropGame PropGrad PropGroup PropImpact PropIr PropJoint
  PropClock PropRewind PropScale PropEnergy PropPlan PropStatics PropInfer PropAssembly PropNewton PropOde PropDisc PropFric PropMirror PropBilliard PropDetect PropMehrotra PropResume PropGradDemo PropSlope PropLearn PropSearch PropDemo PropFall PropAccept PropTurn PropChain PropScatter PropApart PropScene PropScreen PropSolver PropSteady PropStep PropStrict PropSym PropTunnel PropUtil PropWell PropWorld` contain only `Theorem … Proof. exact lemma. Qed.`, the `Example`s
  that show the hypotheses are met, and `Print Assumptions`;
* everything else (`*Facts`, `*Ex`, …): lemmas and worked examples.

## 2. What is modelled, what is not

Modelled: `physics/utils.py` (vector helpers, polar conversion, Recorder, get_instance),
`physics/bodies.py` (constructors, geometry, moves, no-contact sets; not `draw`),
`physics/forces.py`, `physics/constraints.py` (not `draw`), `physics/contacts.py` (both
callbacks), `physics/world.py` (`World` and the loop of `run_world`; not drawing/real-time
pacing), `physics/engines.py`, `lcp/lcp.py` (`forward`, `backward`), `lcp/util.py`
(`bger`, `efficient_btriunpack`), `lcp/solvers/pdipm.py` (the solver used by `LCPFunction`:
`forward, get_step, solve_kkt, pre_factor_kkt, factor_kkt`, and the refinement variants
`solve_kkt_ir, kkt_resid_reg, factor_solve_kkt_reg, factor_solve_kkt`), and from `experiments/breakout`
the state-vector codec, `get_action`, `get_pos_dims`, `step_breakout`, the screen reader (`extract_params`, `remove_rect`), `make_world`, the loop of
`run_breakout` (encoder.py; without display), `simulate_breakout`, the planner's dynamics (`BreakoutDynamics.forward`) and
cost matrices (`mpc`), and the choice of the action in a round of `run_breakout` (run_breakout.py); from `experiments/inference.py`
`make_world`, `hor_impulse`, `positions_run_world` (without display), the loss and the search of `main` (what autograd finds inside the simulator is a parameter); `demos/grad_demo.py` (the gradient is a parameter) and `debug_demo`, `chain_demo`, `slide_demo` and `fric_demo` of `demos/demo.py`, `demos/fixed_joint_demo.py`; `learn_params.py` (the game, the random numbers and the gradient are parameters; torch's RMSprop is modelled with its default settings).

Not modelled: drawing and pygame, `dev_pdipm.py` (imports a function that does not exist and
is not imported by the package), `numerical_backward` (marked experimental), autograd
of the torch operations outside `LCPFunction`, CUDA paths, dtype/device plumbing (`get_tensor`,
`_set_base_tensor`), the MPC solver of the `mpc` package, the neural networks and the rest of the experiments, the display of the demos, rounding (in
the theorems over `R`).

Simplifications, each also noted at the definition:

* torch raises on mismatched shapes; list operations truncate.  Lemmas about the assembled
  matrices show that only matching shapes are ever combined; `set_v` and `Jf` have explicit
  shape checks.
* `get_barycentric_coords` for a triangle calls `torch.inverse`; the model uses Cramer's rule
  and fails for determinant 0.
* The caching of `factor_kkt_eye` never takes effect in the code and is left out.
* `lcp_forward` without inequalities (never called by the engine) is an error; which exception
  torch raises depends on its version.
* `NaN` has no counterpart in `R`.  In `R`, `a / 0 = 0`.  Theorems over `R` about code that
  divides carry a premise excluding the zero divisor or state it otherwise: C26 (regular
  positions), C41 (`no_zero_direction`).  The consequences of a zero divisor in binary64 are the
  findings of C26 and C41.  The theorems about whole runs of the solver that need interior
  iterates (C42 positivity, C45, C47, C55, C56) hold in `R` with `a / 0 = 0`, where a zero
  component of a direction does not limit the step; the code would produce `-inf` there
  (finding C41).

## 3. Trusted base

* Coq 8.16.1's kernel, including its VM (`vm_compute`), and, for the theorems of groups 3 and 4
  below, the kernel's primitive 63-bit integers and IEEE-754 doubles.
* The reading of the Python code in the model files: every definition cites the file and
  lines it models and says where it simplifies (section 2).
* The specification files (`*Spec.v`), which say what the English properties mean.
* No axiom of our own, no functor, no plugin, no kernel check switched off.

What `Print Assumptions` lists, for each of the 369 property theorems (the command follows
every theorem in the `Prop*.v` files, so a build prints it again):

1. *Nothing* ("Closed under the global context"), 22 theorems: `C01_strict_no_penetration`, `C02_before_correction`, `C04_fixed_step_any_arithmetic`, `C09_apply_forces`, `C09_set_p`, `C09_set_v`, `C09_velocity_layout`, `C10_contact_bodies`, `C10_exact`, `C10_respected`, `C10_symmetric`, `C24_cache_is_current`, `C24_cache_transparent`, `C48_files_consecutive`, `C48_one_frame_per_call`, `C50_no_blocks`, `C50_round_trip`, `C52_contacts_current`, `C52_default_callbacks`, `C69_callbacks`, `C74_shown`, `package_handlers_frame`.
2. *The axioms of Coq's standard real numbers*, `ClassicalDedekindReals.sig_forall_dec`,
   `ClassicalDedekindReals.sig_not_dec`, `FunctionalExtensionality.functional_extensionality_dep`
   and `Classical_Prop.classic` (`C100_fric_near`, `C32_nearest_unique`, `C78_coming`, `C78_missing`, `C78_otherwise`, `C78_passed`, `C78_vanishing`, `C90_shipped`, `C90_weak`, `C92_identifies`, `C94_grips` without the last one), 313 theorems: all
   those named in none of 1, 3 and 4.
3. *Only the primitive types and operations* of `PrimInt63` and `PrimFloat` (`float`, `add`,
   `sub`, `mul`, `div`, `sqrt`, `opp`, `abs`, `eqb`, `ltb`, `leb`, `of_uint63`, `next_up`; `int`, `lsl`, `lor`,
   `sub`), no logical axiom, 31 theorems, all of them refutations found by running the
   model in binary64: `C02_post_stab_refuted`, `C02_post_stab_stuck`, `C07_rot2_refuted`, `C08_impulse_refuted`, `C26_normal_refuted`, `C27_world_refuted`, `C30_general_hull_refuted`, `C32_diagonal_refuted`, `C37_friction_restitution_refuted`, `C37_mixed_restitution_run_refuted`, `C41_refuted`, `C45_friction_refuted`, `C46_refuted`, `C54_general_hull_refuted`, `C63_refuted`, `C69_refuted`, `C69_run_refuted`, `C70_refuted`, `C71_refuted`, `C73_refuted`, `C73_solver_refuted`, `C74_high_refuted`, `C74_left_refuted`, `C76_angle_refuted`, `C76_paddle_refuted`, `C76_plan_refuted`, `C77_refuted`, `C87_history_refuted`, `C89_clock_refuted`, `C90_report_refuted`, `C96_refuted`.
4. *The real axioms of 2, the primitive types and operations, and the standard library's axioms that
   specify them* (`FloatAxioms`, `Uint63`: `Prim2SF_SF2Prim`, `Prim2SF_valid`, `SF2Prim_Prim2SF`, `Uint63.add_spec`, `Uint63.eqb_correct`, `Uint63.eqb_refl`, `Uint63.leb_spec`, `Uint63.lor_spec`, `Uint63.lsl_spec`, `Uint63.lsr_spec`, `Uint63.ltb_spec`, `Uint63.of_to_Z`, `Uint63.sub_spec`, `abs_spec`, `add_spec`, `div_spec`, `eqb_spec`, `frshiftexp_spec`, `ldshiftexp_spec`, `ltb_spec`, `next_up_spec`, `opp_spec`, `sub_spec`),
   3 theorems about all binary64 values: `C69_fixed_call`, `C69_fixed_history`, `C69_run_world`.  Flocq adds no axiom of its own.

Hypotheses about outside code.  They are premises of the theorems that need them, never axioms:

* `lapack_ok` (`LapackSpec.v`): in exact arithmetic btrifact returns a packed LU
  factorisation of the matrix with partial-pivoting row interchanges or fails if the matrix is
  singular, btrisolve solves with it, inverse returns the inverse or fails if there is none.
  `LuFacts.ref_lapack_ok` proves it for a Gaussian elimination written in Gallina
  (`LapackRef.v`), so it is satisfiable.
* `broadphase_complete` (`BodySpec.v`): ODE's `space.collide` reports every pair whose
  axis-aligned boxes overlap (C11, C25 iff, C54).  ODE's quaternion convention and the meaning
  of sphere and box are the specification functions `quat_mat`, `geom_points` (C17).
* `translation_invariant` (`BoostSpec.v`): displacing all geoms changes neither the reported pairs
  nor their order, and displaces the narrow phase's contact points (C59, C60).
* `random.choice` and the order of ODE's callbacks are arbitrary functions of the number of
  outside calls made so far: nothing at all is assumed.

## 4. Properties and how they are proved

| id | what is modelled / specification | proof | theorems in |
|----|------------------|------------------|---|
| C01 | `World.__init__`, `step`, `step_dt` over arbitrary engine/callback, any `Num` | loop post-condition by induction on fuel; invariant over op lists | PropStep |
| C02 | the same with `post_stab` | refuted by a run; what holds: loop post-condition before the correction | PropRewind |
| C03 | `step_dt` | induction on fuel: `dt/2^k` | PropStep |
| C04 | `step(fixed_dt)` | loop invariant `t <= end_t` over R | PropStep |
| C05 | `step_dt` non-strict, `run_world` loop | unrolling bound; measure on remaining time | PropStep |
| C06 | `set_p`/`move` on all body kinds; `trials`, `rejected` in RewindSpec | rotations compose; induction on halvings | PropRewind |
| C07 | `Joint` state in `step_dt` | induction on halvings; rot2 drift formula, refuted | PropRewind |
| C08 | engine + halving | refuted by a run; exact formula from C23 | PropRewind, PropEngine |
| C09 | `set_v`, `set_p`, `apply_forces` | list slicing lemmas, any `Num` | PropWorld |
| C10 | `add_no_contact`, callbacks, `find_contacts` | invariant over op lists | PropWorld |
| C11 | geoms, AABB of sphere / rotated box | real geometry, extents inequality | PropBody |
| C12–C17, C51 | constructors, geometry, moves; polygon area, centroid and second moment in GeoSpec | shoelace algebra by induction on the vertex list; rotation invariance; reachability of bodies; for circles, rings (DiscSpec) | PropBody, PropDisc |
| C18–C19 | `forces.py` with a heap of force objects | direct; sharing refuted | PropJoint |
| C20–C21 | `constraints.py`, `Je`; point velocities in JointSpec | algebra; anchor invariant over histories | PropJoint |
| C22, C48, C50 | polar conversion, Recorder, codec | atan2 by cases; induction over calls / blocks | PropUtil |
| C23–C24 | `PdipmEngine` | linear algebra on the assembled system; exact residual invariant of the solver; cache invariant over histories | PropEngine |
| C25–C32, C52–C54 | `contacts.py` | plane geometry: supporting lines, Helly's theorem, GJK loop variant, SAT exactness, clipping; refutations by runs | PropContact |
| C33–C37 | `Jc, Jf, E, mu`, LCP assembly; contact law in EngineSpec | block-matrix algebra, complementarity, energy balance, summed over runs by induction; refutations by runs | PropEngine, PropEnergy |
| C38–C43, C46, C47, C55 | `pdipm.py`, `util.py`; KktSpec, PdipmSpec | list linear algebra over R, LAPACK contract, loop invariants | PropSolver |
| C44, C49, C56–C58 | whole stack | composition of the above over histories | PropEngine |
| C45 | `LCPFunction.backward`; curves of solutions in GradSpec | implicit differentiation, adjoint identity; refuted for asymmetric F | PropGrad |
| C59–C60 | whole stack; displaced and moving worlds in BoostSpec | the two runs related call by call; the LCP solver's iterates shift by U because contact and constraint rows annihilate a common velocity | PropFrame |
| C61 | joints over steps; material points and tangents in DriftSpec | the step moves along the constraint's tangent; arc versus tangent by calculus; pair invariants over histories | PropDrift |
| C62 | `solve_kkt_ir`, `factor_solve_kkt_reg`, `factor_solve_kkt`, `kkt_resid_reg` (KktIr); leftovers in IrSpec | block elimination; the leftover's recurrence; energy estimate for the growth | PropIr |
| C63 | `step_dt`'s halving loop, contact callback; overlap, speed bound in StrictSpec | a move of at most s dt deepens an overlap by at most 2 s dt; the callback's depth is at most the overlap; induction on the halvings | PropStrict |
| C64 | `contact_problem`, `solve_dynamics`; response, allowed velocity in WellSpec | converse of C34 (slack and friction multipliers from a response); strict monotonicity; existence of a KKT point of a convex quadratic programme by induction on the inequalities | PropWell |
| C65 | `lcp_forward`, `lcp_backward`; isometries, orders, corresponding problems in SymSpec | the KKT solution is unique, hence equivariant, whatever the pivots; induction over the iterations with a relation between the two batches; norms, minima and step lengths are invariant | PropSym |
| C66–C68 | whole sessions of circles; `same_state`, `reordered`, `same_scene` in SceneSpec | a relation between two worlds (bodies, constraints, contacts listed in another order, contacts possibly mirrored, all turned) kept by every operation; the engines' problems correspond in the sense of C65, so the answers do. Polygons are left out: `last_sat_idx` and ties of the separating axes depend on the order of the pair | PropScene |
| C69 | `step`, `step_dt`, `run_world` over primitive doubles; `value`, `finite`, `ticks` in FloatSpec | rounding lemmas of Flocq: end - t is exact by Sterbenz once end <= 2 t, and rounding is monotone, so a sub-step never passes the end; before that, the error is half an ulp; relative error for the progress of run_world | PropClock |
| C70, C71 | `diff_handler`, `world_init`, `step_dt`; `overlap_at_most` (a shift after which no two points of the bodies coincide from the wrong side), `measured`, `strict_run`, `during` in StrictSpec | a pair without a contact is disjoint or has overlap 0; a contact of penetration p bounds the overlap by p (support functions along the normal, for the three kinds of contact); between two states, the shift of the nearer one plus the distance moved; circles by the interpolation identity of squared distances | PropTunnel |
| C72 | `step`, `set_v`, `PdipmEngine.solve_dynamics`; `response`, `kinetic_energy` of WellSpec and EngineSpec | test both balances with the difference of the answers plus e times the difference of the velocities; complementarity makes each contact's contribution non-positive, the rest is the arithmetic-geometric mean; the discontinuity by computing both runs symbolically in the velocity | PropSteady |
| C73 | `solve_dynamics`, `step`, `world_apply_forces`; `apart`, `same_group`, `combined`, `group_change` in GroupSpec | test both balances with the difference of the responses inside the group; sums over the group are equal in both worlds; for the combination, split every test motion in the part inside and the part outside, weave the impulses and the forces in the constraints together | PropGroup |
| C74 | the screen reader of experiments/breakout/encoder.py:62-137 (Screen.v); `picture`, `shows`, `readable` in ScreenSpec | first and last matching columns by induction on lines; a removed rectangle changes only its own pixels; induction over the blocks of a level and over the levels; the ball is what is left; `draw` shows that every readable scene has a frame; the loop at the right edge by induction on the fuel | PropScreen |
| C75 | `solve_dynamics` through `response` (C64); `impact`, `kick`, `only_contact`, `fixed_in_place` in ImpactSpec | test the balance with motions of one body: its velocity changes by the impulse at its only contact; the relative velocity is then affine in the impulses, and the complementarity conditions have one solution; fixed bodies have velocity 0 by their constraint; contacts of circles are central by inspection of the callback | PropImpact |
| C76 | make_world, the loop of run_breakout, step_breakout, simulate_breakout and BreakoutDynamics.forward (Game.v, Breakout.v); `board`, `game`, `plan`, `startable`, `uncrowded` in GameSpec, `rounds` in RoundSpec | the world is a session of C24, C56, C67: what is held stays; pairs of pieces are excluded, apart or may touch, by cases; separated boxes give no contact by SAT; free bodies by the momentum balance; the vector by induction over the pieces; findings by binary64 runs | PropGame |
| C77 | the same functions as C60; `rescale_body`, `rescaled_force`, `rescaled` (the same state in other units), `until_contact` (the engine that gives up at contacts) in ScaleSpec | contact detection and moves commute with the change of units, one function at a time; the solution of the scaled linear system is unique; induction over calls; Newton's and Coulomb's laws are homogeneous; finding by a binary64 run | PropScale |
| C78 | the cost of `mpc` and one round of `run_breakout` (run_breakout.py:20-24, 72-136, 195-206) in Plan.v, the MPC solver a parameter; `quad`, `follows`, `plan_cost` in PlanSpec | setting an entry changes the quadratic form by one product; `int` by comparisons; induction over the plan with C76 for the states | PropPlan |
| C79 | no new code; `equilibrium`, `carried`, `dalembert`, `coasting` in StaticsSpec | energy argument on the balance of C64; existence of responses (C64) gives the reactions; induction over the steps for structures beside coasting bodies | PropStatics |
| C80 | `make_world`, `positions_run_world`, the loss (inference.py:50-61, 97-165) in Infer.v; `shot`, `approaching`, `expected_frame` in InferSpec | the constructors by computation, chain of links by induction; no contacts by the bounding boxes; the chain is a structure in balance (C79) as its joints allow no vertical motion; sums of squares | PropInfer |
| C81 | no new code; `assembly`, `total_inertia`, `moves_as_one`, `newton_euler` in AssemblySpec | the FixedJoint rows along the connections give the rigid motion; the balance of C64 tested with rigid motions of the assembly, in which the constraints do no work | PropAssembly |
| C82 | no new code; `newton` (derivatives in the sense of the standard library), `bounded_by`, `within`, `free_run` in NewtonSpec | mean value theorem for the error of one step, induction for the sum, on top of C79's `coasting` | PropNewton |
| C83 | `ode_handler`; what ODE answers for two spheres: `sphere_answer` in OdeSpec | simulation relation between the two runs: rejected trial moves may differ in normals of coincident discs, accepted ones agree | PropOde |
| C84 | engine, solver and step as before; `pushed`, `no_wedge`, `apart`, `paired` in FricSpec, `regular` in RegSpec | the Newton systems reduce to one 4x4 system per contact, solved by cases on the sign of its determinant; response of discs by virtual power; invariant over the pieces of a step | PropFric |
| C85 | the sessions of C66-C68; `view` (mirror, angle, names), `place`, `turn_vel` in SceneSpec | the relation of C68 for any view: spins, tangents and constraint rows change sign and the two friction directions of a contact change places under a reflection; a symmetric scene is related to itself, and what is fixed by the view is read off | PropMirror |
| C86 | constructor, step, contact detection of two circles as modelled; any engine whose answers are responses in the sense of C34; `true_at`, `noticed_after`, `exact_along` in BilliardSpec | the run in closed form by induction on the steps (free, then the contact is noticed after k steps, then apart); locally affine in the initial data, so the derivatives are read off | PropBilliard |
| C87 | find_contacts, default callback with last_sat_idx as modelled; `clear_cut`, `same_pairs` in DetectSpec, `still` in FreshSpec, `simulated` in ContactSpec | the search for the best edge finds the maximum from any start, and without ties the same edge; the contacts of a session are the ones of its last look (C24's invariant), so two sessions agree pair by pair | PropDetect |
| C88 | the loop of pdipm.forward as modelled for C41-C43; `newton_dir`, `longest`, `mehrotra_step` in MehrotraSpec | C38 gives the two linear solves; the fourth equation is multiplied by s_i; the step lengths by cases on the minimum | PropMehrotra |
| C89 | world_init called again with the bodies and joints of a world; `rebuild`, `delayed`, `repeatable`, `same_outcome` in ResumeSpec | a world is its rebuilt twin up to clock, cache and call counter (invariants of C20, C24); every piece of a step commutes with the shift of the clock; the cache is removed by C24 | PropResume |
| C90 | demos/grad_demo.py (GradDemo.v); closed form of the course of the pushed ball, `misses`, `gradient_of` in GradDemoSpec | free runs (C79's coasting) on the discs of the demo; missing is an open condition (compactness), so the measured distance is locally constant; induction on the rounds for the report | PropGradDemo |
| C91 | the contact problem of the engine (C36, C75), clipping (C30); `stands`, `rubbed`, `strain` in SlopeSpec | sums over the feet; the lever rule gives lift >= mu h |spin| at the outer feet, Newton's law and the cone then force spin and lift to 0; for the returned point the same estimate with residuals | PropSlope |
| C92 | learn_params.py (Learn.v: episode, loss, RMSprop, loop); pictures, mean of squares, `gradient_at`, `moves_by` in LearnSpec | free rounds of the game (C76) through simulate_breakout's overwriting of angles; keeping away is an open condition, so the closed form holds nearby and can be differentiated; induction on the iterations | PropLearn |
| C93 | inference.py main (Search.v: loss.backward for MSELoss, RMSprop, loop with histories); films, mean of squares and its derivative in SearchSpec | induction on the iterations; chain rule; films before the impact (C80); a chain without mass can swing, so its system of equations has no inverse | PropSearch |
| C94 | demo.py slide_demo (Demo.v); poses of the plane and of the falling block in DemoSpec | the upper edge of the plane separates it from the block for 46 steps; totality of runs beside a structure at rest (BesideRun) | PropDemo |
| C95 | fixed_joint_demo.py (Demo.v); `falling`, `linked`, `shifted` in FallSpec, poses of the demo in DemoSpec | C79's induction over the steps, with joined bodies that move alike (`jointed` in StaticsSpec): a common translation moves no constraint, so d'Alembert's principle is met by the free accelerations | PropFall |
| C96 | World.__init__ (World.v) and the contact handler (Contacts.v); `overlap_at_most` in StrictSpec, `at_hand`, `plain_body`, `plain_pair` in AcceptSpec | refuted for general hulls by evaluation; for Rects: of the two deepest faces the clipped incident edge is no deeper than the overlap (DepthFacts: right corners put every vertex beyond the foot of every edge, so that clipping only shortens), then C97 and the totality of detection | PropAccept |
| C97 | the same | one direction is C70's cover argument, the other the depth bound of DepthFacts for every reported contact | PropAccept |
| C98 | the contact handler, bodies, world and engine (Contacts.v, Bodies.v, World.v, Engines.v); `turned_world`, `turned_oracle`, `turned_call` in TurnSpec, `turn_body`, `built_alike` in SceneSpec | every helper of the handler commutes with a rotation (dot products, cross products and lengths are kept; TurnFacts), so the handler does exactly; the engine part is that of C68, abstracted over what keeps two runs together (SceneRun) | PropTurn |
| C99 | chain_demo (Chain.v); `chain_at`, `chain_places`, `chain_loads` in ChainSpec | the velocities the constraints allow have no vertical part (induction down the chain from the Y constraint), so the weights are in balance and C79's argument keeps the chain at rest, with post-stabilisation; hinged neighbours are excluded from contact, the others are apart, and the projectile's course is computed (ChainFacts, ChainRun) | PropChain |
| C100 | debug_demo and fric_demo (Scatter.v); `debug_at`, `fric_at`, `debug_loads`, `fric_loads` in ScatterSpec | a lemma for scenes of discs and rectangles: axis-parallel boxes around the bodies that are more than eps apart exclude contacts, also for a rectangle that turns; with C79's argument for the constrained bodies and the closed forms of the free motions (ScatterFacts, ScatterRun, DebugRun) | PropScatter |
| C101 | the scenes of C79 with the room between the bodies stated on their points (`occupies`, `strip`, `strip_along`, `room`, `all_room` in ApartSpec) | the callback is silent for pairs with room: the depth lemma of C70 for pairs with a circle, the separating-axis value of C54 for polygons; then the run of C79 (ApartFacts, ApartEx); the finding by evaluating the callback on two squares (CornerEx) | PropApart |
## 5. Findings (relied-on behaviour the code does not have)

The `statement` in properties.jsonl says what is relied on, the finding, and what holds
instead.  Each finding is a theorem about the faithful model with a concrete witness:

* C02 `C02_post_stab_refuted`, `C02_post_stab_stuck`: post-stabilisation moves the bodies after
  the penetration check.  A strict world of three circles ends a step above `tol`; its next step
  halves for ever.
* C07 `C07_rot2_refuted`: `step_dt` restores `rot1` of a joint but not `rot2`.
* C08 `C08_impulse_refuted`: velocities are solved once for the full dt; a halved step applies
  the full impulse but moves for the halved time.
* C19 `C19_shared_gravity_refuted`: `Gravity.set_body` overwrites the weight cached for the
  first body.
* C26 `C26_normal_refuted`: circle centred exactly on a polygon's edge: 0/0.
* C27 `C27_any_hull_refuted`, `C27_world_refuted`: `get_support` starts from -1, so a
  self-intersecting outline accepted by the orientation check leaves `best_idx` unbound.
* C29 `C29_outside_refuted`: clipping a segment that lies outside returns a point outside the
  segment.
* C30 `C30_general_hull_refuted`, C54 `C54_general_hull_refuted`: the side planes of the
  clipping are at half the edge length from the *origin* of the body frame, right only if the
  reference edge is centred below the centroid (Rects, regular polygons).  Otherwise contact
  points lie outside the face, or overlapping bodies get no contact at all.
* C32 `C32_diagonal_refuted`: circle centre on a diagonal: the contact depends on
  `random.choice`.
* C37 `C37_mixed_restitution_refuted`, `C37_mixed_restitution_run_refuted`,
  `C37_friction_restitution_refuted`: kinetic energy grows for contacts with different
  restitutions, and for friction with restitution.
* C41 `C41_refuted`: a zero component of a direction makes `get_step` return -inf.
* C45 `C45_asymmetric_refuted`, `C45_friction_refuted`: the backward pass solves the forward
  system, not its transpose; wrong for every problem with friction.
* C46 `C46_refuted`: the step cap is a maximum over the whole batch, and one singular element
  makes all fail.
* C61 `C61_refuted`: velocities obey the joint at the start of the step only; bodies held by a
  FixedJoint move along tangents and so apart, by the factor sqrt(1 + th^2) per step.
* C62 `C62_refuted`, `C62_doubles`: `solve_kkt_ir` passes the negated residual to a solver that
  negates it again, so refinement adds the error; `factor_solve_kkt` and `factor_solve_kkt_reg`
  disagree on the sign of C (`C62_factor_solve_opposite`).
* C63 `C63_refuted`: in strict worlds the step is halved until no penetration exceeds tol; a body
  squeezed between two fixed ones at exactly tol makes the halving continue until rounding hides
  the motion, so time stands still.
* C64 `C64_refuted`: with different restitutions the contact problem may have no solution at all (a disc
  between two held discs, leaving one and hitting the other); the solver's best iterate is used silently.
  `C64_friction_refuted`: with friction it may have several (a disc in a slot may slide on or stop).
* C69: `step(fixed_dt=True)` may end on the double after t + dt (`C69_refuted`: a ball bouncing off a held disc,
  sub-steps dt/4, 3dt/16, rest, all roundings ties); once t >= 2^53 dt the clock stands still and `run_world` never
  returns (`C69_run_refuted`).
* C70: a strict world accepts two hulls buried in each other by more than 2 (`C70_refuted`; the cause is that of C54:
  the narrow phase reports nothing).
* C71: a fast ball passes through another one in one step, unnoticed (`C71_refuted`): contacts are looked for only at the
  ends of steps.
* C72: step() is discontinuous in the velocities, because a rejected trial is repeated with half the time
  (`C72_refuted`); with different restitutions or with friction the answers to two velocities can move apart
  (`C72_restitution_refuted`, `C72_friction_refuted`).
* C73: a collision far away changes how a free ball falls (`C73_refuted`): all bodies repeat a rejected trial, and each
  trial adds the external impulses to the velocities of the one before (cause of C06, C08).  The solver stops for all contacts at
  once, so the accuracy of one pair depends on the others (`C73_solver_refuted`).
* C74: the screen reader takes the ball for a block when it crosses the first block line (`C74_high_refuted`), for the paddle when
  it is close beside it (`C74_left_refuted`), and loops for ever when a block reaches the right edge (`C74_edge_refuted`).
* C76: a ball that comes straight down on the paddle pushes it off its line and turns it and is not returned (`C76_paddle_refuted`);
  simulate_breakout resets the angle but not the vertices (`C76_angle_refuted`) and raises without blocks (`C76_state`); plans never
  see a bounce (`C76_plan_refuted`).  The right stopper is behind the right wall, which the paddle may cross (`C76_contacts`).
* C77: the answers of the engine to contacts depend on the unit of mass: a collision of two discs that is right for masses 1 is hardly
  noticed for masses 1024, with the default settings (`C77_refuted`).  The residual the solver minimises adds velocities, impulses and
  their products, and the search stops after three iterations without improvement.
* C78: a lost ball is reported far below the screen "to incur high cost" (encoder.py:128), but run_breakout's cost does not look at the
  ball's height (vert_cost is off): with the paddle in the middle the cost is 0 (`C78_offscreen_refuted`).
* C80: in inference.py the frames recorded before the projectile hits the chain (45 of them) do not depend on the mass, so a run that ends
  there has loss 0 for every two masses (`C80_mass_refuted`).  The first link of the chain gets no gravity (inference.py:102-104, `C80_world`).
* C81: bodies fixed to each other that spin freely slow down from step to step (`C81_refuted`, `C81_slower`): each step moves them along
  tangents and so increases their moment of inertia, while the angular momentum is kept.
* C82: free fall loses energy, m |a|^2 T dt/2 in time T (`C82_constant`, `C82_energy_refuted`): poses are moved with the velocity at the
  end of the step, so a falling body falls too far by a T dt/2 and a rising one rises too little.
* C83: OdeContactHandler sees a Hull as the disc through its farthest vertex (`C83_outline`, `C83_hull_refuted`), because Hull's geom is a
  sphere that is meant for the broad phase only; and it keeps contacts up to a gap of 2 eps where the default callback stops at eps (`C83_eps_refuted`).
* C84: with friction the solver's linear systems can be singular in reachable states (`C84_wedge_refuted`): a contact that wedges, such as a disc on a
  lever. The code has no regularisation, and `lu_factor_solve` would raise or return infinities there.
* C86: derivatives through a collision (`C86_position_gradient_refuted`, `C86_velocity_gradient_refuted`): the time at which a contact is noticed is a whole
  number of (halved) steps, so it does not vary with the initial data, and the simulated positions have derivatives that ignore the collision however small dt is,
  although the positions themselves converge.
* C87: contacts depend on the past in a tie (`C87_history_refuted`): `last_sat_idx` belongs to a Hull, not to a pair, and decides which of two equally far edges
  is found; rebuilding a World from the same bodies can turn a contact normal by a right angle.
* C89: a World rebuilt from the bodies of another one starts its clock at 0, and nothing in the API sets it, so forces that depend on time start over
  (`C89_clock_refuted`).
* C90: grad_demo.py stops at once when the pushed ball misses (the gradient is 0 there), and the distance it prints at the end is that of the round before
  the last update, because `target` and `c` are not taken from the last world (`C90_stuck`, `C90_report`, `C90_report_refuted`).
* C92: the velocity learn_params.py learns has the opposite sign of the one run_breakout expects: handed over as it is, the planner's paddle moves the wrong
  way (`C92_handed_over`, `C92_handed_over_refuted`).
* C93: inference.py's search returns every guess unchanged, with final loss 0, if the run ends before the projectile arrives (`C93_found_refuted`); its first
  step has length 5 whatever the slope and nothing keeps the mass positive (`C93_positive_refuted`); the guess 0, which torch.rand can return, makes the
  simulation raise (`C93_massless_refuted`).
* C96: two triangles, the first above y = 0 and the second below y = -1/32, get a contact with a penetration of 0.79, and a strict world with them is refused: contacts.py:270-292 `clip_segment_to_line` on the second side plane of the reference edge extrapolates the incident edge beyond its ends, since the side planes of a general hull are not where the vertices are. Theorem `C96_refuted`; for Rects it cannot happen (`C96_exact`).

## 6. Testing the theorems against wrong programs

`seeded/LOG.jsonl` records one line per seeded bug.  Each is applied to a scratch copy of the
model, everything that depends on it is recompiled, each failing proof is replaced by an axiom,
and a property theorem counts as failed iff `Print Assumptions` then lists that axiom.
