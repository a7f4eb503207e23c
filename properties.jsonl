{"id": "C01", "title": "Name lookup returns the first match", "statement": "For a NamedObjectsList L and a string n, L[n] is the object at the smallest index among the NamedObjects of L whose name is n, and raises KeyError exactly when there is none; L.find(n) is the sublist, in order, of all such objects. Objects that are not NamedObjects, and unnamed ones, never match a string. L[i] for an integer is the element at i, counted from the end when negative, IndexError outside.", "quantifier": "all lists (any length, duplicate and missing names, foreign objects) and all names", "why_tests_cant": "It ranges over an unbounded input space; tests sample a few literals.", "anchors": ["arboris/core.py: NamedObjectsList.__getitem__, find"]}
{"id": "C02", "title": "as_dict maps every name or reports duplicates", "statement": "L.as_dict() returns exactly the mapping name -> object of the named objects when names are pairwise distinct (unnamed and foreign objects ignored); when two named objects share a name it raises DuplicateNameError, as documented.", "quantifier": "all lists", "why_tests_cant": "It ranges over an unbounded input space; tests sample a few literals.", "anchors": ["arboris/core.py: NamedObjectsList.as_dict, DuplicateNameError"]}
{"id": "C03", "title": "name_all_elements names everything and detects duplicates", "statement": "On a list: afterwards every element has a name, elements that had a name keep it, order is unchanged; with check_unicity it raises DuplicateNameError exactly when two elements end up with the same name, and the reported list contains each name exactly (occurrences - 1) times.", "quantifier": "all lists of named/unnamed elements, any identity-derived default names", "why_tests_cant": "It ranges over an unbounded input space; tests sample a few literals.", "anchors": ["arboris/core.py: name_all_elements"]}
{"id": "C04", "title": "Duplicate-name detection works for every iterable", "statement": "name_all_elements(it, True) detects duplicate names whatever iterable it is given, in particular the one-shot generators (World.iterbodies(), World.itermovingsubframes()) the loggers pass to it.", "quantifier": "all iterables (lists and one-shot generators)", "why_tests_cant": "Existing tests only pass lists; the generator path silently passes.", "anchors": ["arboris/core.py: name_all_elements", "arboris/observers.py: SaveLogger.init"]}
{"id": "C05", "title": "The world stays a tree", "statement": "Starting from fresh objects, after any sequence of add_link / replace_joint / register / init calls in which no add_link attaches an ancestor of (or the same body as) its own parent frame, every body belongs to exactly one finite rooted tree: a body has at most one parent joint, it is listed exactly once among the children of the body of that joint's frame0, and parent and child links agree.", "quantifier": "all histories of successful structural calls", "why_tests_cant": "It must hold after every history of API calls; tests exercise a handful of scripts.", "anchors": ["arboris/core.py: World.add_link, World.replace_joint, Body"]}
{"id": "C06", "title": "add_link rejects kinematic loops", "statement": "add_link never leaves the world with a cycle: linking to a body that already has a parent joint, or to a body that already contains the parent frame's body in its subtree (including the ground itself), is refused with ValueError.", "quantifier": "all worlds and links", "why_tests_cant": "It must hold after every history of API calls; tests exercise a handful of scripts.", "anchors": ["arboris/core.py: World.add_link"]}
{"id": "C07", "title": "add_link adds exactly one leaf link and nothing else", "statement": "A successful add_link(f0,j,f1) appends j at the end of the children of f0's body, makes it the parent joint of f1's body, sets j's frames, registers f0 and f1 if they are subframes, and changes no other parent/child relation; with extra arguments it is equivalent to the successive single calls.", "quantifier": "all worlds, frames, joints, argument lists", "why_tests_cant": "It must hold after every history of API calls; tests exercise a handful of scripts.", "anchors": ["arboris/core.py: World.add_link"]}
{"id": "C08", "title": "A refused add_link leaves no trace", "statement": "If add_link raises, the world and the joint are as they were before the call, so that the call can be corrected and retried.", "quantifier": "all worlds and failing calls", "why_tests_cant": "It must hold after every history of API calls; tests exercise a handful of scripts.", "anchors": ["arboris/core.py: World.add_link"]}
{"id": "C09", "title": "Depth-first traversal visits everything once, parents first", "statement": "iterbodies / iterjoints (and Body.iter_descendant_*) enumerate each body / joint of the tree exactly once, in depth-first order: a body after its parent, siblings in insertion order, a whole subtree before the next sibling.", "quantifier": "all trees of any shape and depth", "why_tests_cant": "It ranges over an unbounded input space; tests sample a few literals.", "anchors": ["arboris/core.py: Body.iter_descendant_bodies, iter_descendant_joints, World.iterbodies, iterjoints"]}
{"id": "C10", "title": "Ancestor iteration walks to the root", "statement": "iter_ancestor_bodies / iter_ancestor_joints of a body yield exactly the bodies / joints on the path from the body to the root, nearest first, and a body b is an ancestor of c iff c is a descendant of b.", "quantifier": "all trees, all bodies", "why_tests_cant": "It ranges over an unbounded input space; tests sample a few literals.", "anchors": ["arboris/core.py: Body.iter_ancestor_bodies, iter_ancestor_joints"]}
{"id": "C11", "title": "replace_joint substitutes in place", "statement": "replace_joint(old,new) leaves the tree shape unchanged, the new joint takes the old joint's position among its siblings and its frames, the old joint is detached, no other joint or body is affected, and the dofs are re-indexed.", "quantifier": "all worlds, all joints, both syntaxes", "why_tests_cant": "It must hold after every history of API calls; tests exercise a handful of scripts.", "anchors": ["arboris/core.py: World.replace_joint"]}
{"id": "C12", "title": "replace_joint is all-or-nothing", "statement": "If replace_joint raises, the old joint is still in place and the world can still be traversed.", "quantifier": "all failing calls", "why_tests_cant": "It must hold after every history of API calls; tests exercise a handful of scripts.", "anchors": ["arboris/core.py: World.replace_joint"]}
{"id": "C13", "title": "Registration is idempotent and closed", "statement": "register stores each subframe, shape, constraint and controller at most once whatever the number of calls, in first-registration order; registering a shape also registers its frame, registering a contact its two moving frames; bodies are ignored, joints and foreign objects are refused with ValueError without any effect.", "quantifier": "all histories of register calls", "why_tests_cant": "It must hold after every history of API calls; tests exercise a handful of scripts.", "anchors": ["arboris/core.py: World.register"]}
{"id": "C14", "title": "Dof slices partition the velocity vector", "statement": "After World.init(), joint dofs are consecutive slices in depth-first order: each joint j gets a slice of length j.ndof, slices are pairwise disjoint, and together they cover 0..ndof-1 where ndof is the sum of the joints' ndof.", "quantifier": "all trees and joint types (incl. 0-dof joints)", "why_tests_cant": "It ranges over an unbounded input space; tests sample a few literals.", "anchors": ["arboris/core.py: World.init, Joint.dof"]}
{"id": "C15", "title": "init preserves velocities and makes joint and world velocities one", "statement": "World.init() keeps every joint's generalized velocity; afterwards the joint velocity is a live view on its slice of the world vector: writing a joint's gvel changes exactly that slice of world.gvel, no two joints share storage, init() called twice changes nothing, and the array returned by world.gvel is a private copy.", "quantifier": "all worlds, all histories of init and writes", "why_tests_cant": "It must hold after every history of API calls; tests exercise a handful of scripts.", "anchors": ["arboris/core.py: World.init, World.gvel"]}
{"id": "C16", "title": "JointsList.dof enumerates the members' dofs", "statement": "For any list of initialised joints, JointsList(l).dof denotes, as an index, exactly the concatenation in list order of the members' dof ranges (a slice when they are contiguous from 0, otherwise an explicit list); for the whole world it is slice(0, ndof); it raises ValueError when some joint was added after the last init.", "quantifier": "all sublists, permutations, repetitions", "why_tests_cant": "It ranges over an unbounded input space; tests sample a few literals.", "anchors": ["arboris/core.py: JointsList._init_dof, Joint.dof"]}
{"id": "C17", "title": "parse reports every element exactly once, parents first", "statement": "World.parse(target) calls init_parse first, then add_link exactly once per joint (depth-first) and register exactly once per body of the tree, per registered subframe of those bodies, per shape attached to one of those frames, per constraint and per controller; a frame is registered before the links that start from it, and a shape after its frame.", "quantifier": "all worlds", "why_tests_cant": "It ranges over an unbounded input space; tests sample a few literals.", "anchors": ["arboris/core.py: World.parse"]}
{"id": "C18", "title": "simulate follows the timeline", "statement": "For a strictly increasing timeline t0<...<tn simulate performs exactly n steps; in step k the world time is t_k, dt is t_{k+1}-t_k, the order is update_dynamic, update_controllers, update_constraints, every observer's update(dt) in order, integrate; observers are initialised once before and finished once after; the final time is t_n.", "quantifier": "all timelines, worlds and observer lists", "why_tests_cant": "It must hold after every history of API calls; tests exercise a handful of scripts.", "anchors": ["arboris/core.py: simulate, World.integrate"]}
{"id": "C19", "title": "simulate refuses a non-increasing timeline", "statement": "If the first non-increase is between t_k and t_{k+1}, exactly the k first steps are executed and the call then raises AssertionError before any observer sees step k; an empty timeline raises IndexError before touching the world.", "quantifier": "all timelines", "why_tests_cant": "It ranges over an unbounded input space; tests sample a few literals.", "anchors": ["arboris/core.py: simulate, World.update_controllers"]}
{"id": "C20", "title": "Recorders and loggers capture every step", "statement": "After simulate over n+1 times, each recorder holds exactly n entries, entry k being the observed value at time t_k before integration of step k; SaveLogger's timeline is t_0..t_{n-1}; no write is out of bounds and no entry is left empty; re-running resets the record.", "quantifier": "all timelines and observed quantities", "why_tests_cant": "It must hold after every history of API calls; tests exercise a handful of scripts.", "anchors": ["arboris/observers.py: _Recorder, SaveLogger, RecordJointGpos"]}
{"id": "C21", "title": "Collision solver selection does not depend on argument order", "statement": "choose_solver(a,b) and choose_solver(b,a) select the same solver for the same pair of shapes (up to the order of two spheres), or both raise NotImplementedError; the returned shapes have the types the solver requires.", "quantifier": "all pairs of shapes", "why_tests_cant": "It ranges over an unbounded input space; tests sample a few literals.", "anchors": ["arboris/collisions.py: choose_solver"]}
{"id": "C22", "title": "get_all_contacts enumerates the admissible pairs", "statement": "get_all_contacts(world) returns one contact for every unordered pair of registered shapes attached to different bodies for which a solver exists, none for shapes of the same body, none twice.", "quantifier": "all worlds and shape lists", "why_tests_cant": "It ranges over an unbounded input space; tests sample a few literals.", "anchors": ["arboris/constraints.py: get_all_contacts"]}
{"id": "C23", "title": "Elementary transforms are rigid motions and compose as documented", "statement": "transl, rotx, roty, rotz, rotzyx, rotzy, rotzx, rotyx return matrices with orthogonal rotation part of determinant 1 and last row (0,0,0,1); rotzyx(a,b,c)=rotz(a)roty(b)rotx(c) and likewise for the others; all are accepted by ishomogeneousmatrix.", "quantifier": "all angles and translations", "why_tests_cant": "It ranges over an unbounded input space; tests sample a few literals.", "anchors": ["arboris/homogeneousmatrix.py: transl, rotx, roty, rotz, rotzyx, rotzy, rotzx, rotyx"]}
{"id": "C24", "title": "inv is the two-sided inverse", "statement": "For every rigid motion H, inv(H)H = H inv(H) = I, inv is an involution and reverses products. inv refuses (AssertionError) a matrix that is not homogeneous, so any matrix it accepts is inverted.", "quantifier": "all 4x4 matrices", "why_tests_cant": "It ranges over an unbounded input space; tests sample a few literals.", "anchors": ["arboris/homogeneousmatrix.py: inv, ishomogeneousmatrix"]}
{"id": "C25", "title": "pdot/vdot are group actions and isometries", "statement": "pdot(H1 H2,p)=pdot(H1,pdot(H2,p)), vdot likewise, pdot(inv H) undoes pdot(H), distances between points and lengths of vectors are preserved by rigid motions.", "quantifier": "all rigid motions, points and vectors", "why_tests_cant": "It ranges over an unbounded input space; tests sample a few literals.", "anchors": ["arboris/homogeneousmatrix.py: pdot, vdot"]}
{"id": "C26", "title": "The adjoint is a group representation", "statement": "adjoint(H1 H2)=adjoint(H1)adjoint(H2), iadjoint(H) is the inverse of adjoint(H), adjointmatrix.inv inverts every adjoint, and adjoint(H) maps body twists as the rigid motion does: hat(adjoint(H)T) = H hat(T) inv(H).", "quantifier": "all rigid motions and twists", "why_tests_cant": "It ranges over an unbounded input space; tests sample a few literals.", "anchors": ["arboris/homogeneousmatrix.py: adjoint, iadjoint", "arboris/adjointmatrix.py: inv"]}
{"id": "C27", "title": "adjacency is the Lie bracket and gives the derivative of the adjoint", "statement": "adjacency(T)T'=[T,T'] (antisymmetric, Jacobi), and along any motion with H' = H hat(T), d/dt adjoint(H) = adjoint(H)adjacency(T) (dAdjoint).", "quantifier": "all twists, all differentiable motions", "why_tests_cant": "It ranges over an unbounded input space; tests sample a few literals.", "anchors": ["arboris/twistvector.py: adjacency", "arboris/homogeneousmatrix.py: dAdjoint"]}
{"id": "C28", "title": "exp is the screw displacement of the twist", "statement": "For |w| >= 0.001, exp(tw) is a rigid motion, fixes the rotation axis, rotates by the angle |w|, and s -> exp(s tw) has velocity tw (d/ds exp(s tw) = exp(s tw) hat(tw)); below the threshold, the result differs from the true exponential rotation by at most a fourth-order term so that it passes ishomogeneousmatrix.", "quantifier": "all twists", "why_tests_cant": "It ranges over an unbounded input space; tests sample a few literals.", "anchors": ["arboris/twistvector.py: exp"]}
{"id": "C29", "title": "Roll-pitch-yaw angles round-trip", "statement": "rotzyx(*rotzyx_angles(H)) reproduces the rotation of H for every rotation matrix, and rotzyx_angles(rotzyx(z,y,x)) = (z,y,x) for |y|<pi/2 and |z|,|x|<pi.", "quantifier": "all rotation matrices / all angle triples", "why_tests_cant": "It ranges over an unbounded input space; tests sample a few literals.", "anchors": ["arboris/homogeneousmatrix.py: rotzyx_angles", "arboris/robots/urdf/__init__.py: rotation_matrix_to_roll_pitch_yaw"]}
{"id": "C30", "title": "zaligned builds a frame around the given normal", "statement": "For every unit vector v, zaligned(v) is a rigid rotation whose z axis is v, whatever the order of magnitude of the coordinates; vectors that are not of norm 1 (within 1e-9) are refused; the result is always accepted by ishomogeneousmatrix.", "quantifier": "all vectors", "why_tests_cant": "It ranges over an unbounded input space; tests sample a few literals.", "anchors": ["arboris/homogeneousmatrix.py: zaligned"]}
{"id": "C31", "title": "Joint jacobians are the velocity of joint poses", "statement": "For every joint type, along any differentiable motion q(t) with q' = gvel, the pose satisfies d/dt pose = pose hat(jacobian gvel), i.e. joint.twist is the relative twist of frame 1 w.r.t. frame 0 in frame 1.", "quantifier": "all joint types, all configurations, all motions", "why_tests_cant": "It ranges over an unbounded input space; tests sample a few literals.", "anchors": ["arboris/joints.py", "arboris/core.py: Joint.twist"]}
{"id": "C32", "title": "djacobian is the time derivative of jacobian", "statement": "For every joint type, along any differentiable motion with q' = gvel, each entry of djacobian is the time derivative of the same entry of jacobian.", "quantifier": "all joint types and motions", "why_tests_cant": "It ranges over an unbounded input space; tests sample a few literals.", "anchors": ["arboris/joints.py"]}
{"id": "C33", "title": "The inverse-motion quantities of a joint are right", "statement": "joint.ipose inverts joint.pose, itwist is the twist of the inverse motion, dadjoint and idadjoint are the time derivatives of adjoint and iadjoint, for every joint type.", "quantifier": "all joint types and motions", "why_tests_cant": "It ranges over an unbounded input space; tests sample a few literals.", "anchors": ["arboris/rigidmotion.py: RigidMotion", "arboris/joints.py"]}
{"id": "C34", "title": "The multi-dof joint equals the serial hinges", "statement": "RzRyRxJoint has the same pose and jacobian as Rz, Ry, Rx joints in series through massless bodies (resp. RzRy, RzRx, RyRx).", "quantifier": "all angles", "why_tests_cant": "test_joints checks one triple of angles.", "anchors": ["arboris/joints.py: RzRyRxJoint", "tests/test_joints.py"]}
{"id": "C35", "title": "A free joint stays a rigid motion under integration", "statement": "Starting from a rigid motion, after any number of FreeJoint.integrate steps with any velocities and time steps the generalized position is still accepted as a homogeneous matrix (so the simulation never aborts on it).", "quantifier": "all step counts, velocities, time steps", "why_tests_cant": "It must hold after every history of API calls; tests exercise a handful of scripts.", "anchors": ["arboris/joints.py: FreeJoint.integrate", "arboris/twistvector.py: exp"]}
{"id": "C36", "title": "Mass constructors give valid mass matrices", "statement": "box, ellipsoid, cylinder, sphere return symmetric positive definite matrices with m*I translational block for positive dimensions and mass, sphere(r,m)=ellipsoid((r,r,r),m), and the box values equal the volume integrals of a homogeneous box.", "quantifier": "all dimensions and masses", "why_tests_cant": "It ranges over an unbounded input space; tests sample a few literals.", "anchors": ["arboris/massmatrix.py: box, ellipsoid, cylinder, sphere"]}
{"id": "C37", "title": "transport preserves kinetic energy and validity", "statement": "transport(M,H) is symmetric, positive definite with the same mass m*I block; the kinetic energy of a twist is the same in both frames; transport composes (transport(transport(M,H1),H2)=transport(M,H1H2)) and is undone by inv(H).", "quantifier": "all mass matrices, rigid motions, twists", "why_tests_cant": "It ranges over an unbounded input space; tests sample a few literals.", "anchors": ["arboris/massmatrix.py: transport"]}
{"id": "C38", "title": "principalframe locates the centre of mass and principal axes", "statement": "For the mass matrix of a rigid body with centre of mass r, principalframe(M) has origin r, and transport(M, principalframe(M)) has zero coupling block and diagonal inertia when the eigenvectors returned are orthonormal.", "quantifier": "all valid mass matrices", "why_tests_cant": "It ranges over an unbounded input space; tests sample a few literals.", "anchors": ["arboris/massmatrix.py: principalframe"]}
{"id": "C39", "title": "Body poses are the products of transforms along the path", "statement": "After update_geometric (or update_dynamic) the pose of each body is H_parent * bpose(frame0) * joint.pose * inv(bpose(frame1)), hence the ordered product along the path from the ground; both methods give the same poses; all poses are rigid motions and no assertion fails when joint poses and frame poses are rigid.", "quantifier": "all trees and configurations", "why_tests_cant": "It ranges over an unbounded input space; tests sample a few literals.", "anchors": ["arboris/core.py: Body.update_geometric, Body.update_dynamic"]}
{"id": "C40", "title": "Body twist equals jacobian times gvel", "statement": "After update_dynamic, for each body (and each subframe) twist = jacobian * gvel, and the jacobian columns of joints that are not ancestors of the body are zero.", "quantifier": "all trees, configurations and velocities", "why_tests_cant": "It ranges over an unbounded input space; tests sample a few literals.", "anchors": ["arboris/core.py: Body.update_dynamic, _SubFrame.twist, _SubFrame.jacobian"]}
{"id": "C41", "title": "Body jacobians are the velocities of body poses", "statement": "Along every differentiable motion of the joints with q' = gvel, d/dt pose_b = pose_b hat(twist_b) for each body b of the tree.", "quantifier": "all trees, all differentiable motions", "why_tests_cant": "It ranges over an unbounded input space; tests sample a few literals.", "anchors": ["arboris/core.py: Body.update_dynamic"]}
{"id": "C42", "title": "Body djacobian is the time derivative of jacobian", "statement": "Along every differentiable motion of the joints with q' = gvel, each entry of body.djacobian is the time derivative of the same entry of body.jacobian.", "quantifier": "all trees, joint types, motions", "why_tests_cant": "It ranges over an unbounded input space; tests sample a few literals.", "anchors": ["arboris/core.py: Body.update_dynamic", "arboris/rigidmotion.py: idadjoint"]}
{"id": "C43", "title": "The world mass matrix is symmetric positive semi-definite", "statement": "After update_dynamic world.mass is symmetric, x'Mx>=0, and the kinetic energy gvel'M gvel/2 is the sum over bodies of twist'M_b twist/2.", "quantifier": "all trees with valid body masses, all configurations", "why_tests_cant": "It ranges over an unbounded input space; tests sample a few literals.", "anchors": ["arboris/core.py: World.update_dynamic", "arboris/observers.py: EnergyMonitor.update"]}
{"id": "C44", "title": "Non-linear effects do no work on a body and satisfy Newton-Euler", "statement": "For a body with a valid rigid-body mass matrix, twist'(nleffects twist)=0 and nleffects*twist is the Newton-Euler gyroscopic wrench.", "quantifier": "all trees, configurations, velocities", "why_tests_cant": "It ranges over an unbounded input space; tests sample a few literals.", "anchors": ["arboris/core.py: Body.update_dynamic, World.update_dynamic"]}
{"id": "C45", "title": "integrate solves the documented implicit equation", "statement": "After update_controllers and integrate, the new velocity v' satisfies M (v'-v)/dt + (N+B) v' = sum of controller forces (constant part + Z_a v') + constraint forces, exactly; singular impedance raises LinAlgError and leaves velocities untouched.", "quantifier": "all worlds, dt>0", "why_tests_cant": "It ranges over an unbounded input space; tests sample a few literals.", "anchors": ["arboris/core.py: World.update_controllers, World.integrate"]}
{"id": "C46", "title": "The PD controller applies the documented implicit PD law", "statement": "The force effectively applied over a step by a ProportionalDerivativeController is Kp(q_d - q(t+dt)) + Kd(dq_d - dq(t+dt)) on its joints' dofs and zero elsewhere, for every list of linear joints.", "quantifier": "all joint lists, gains, targets, dt", "why_tests_cant": "It ranges over an unbounded input space; tests sample a few literals.", "anchors": ["arboris/controllers.py: ProportionalDerivativeController"]}
{"id": "C47", "title": "Gravity is conservative", "statement": "The power gforce.gvel of WeightController(-9.81) is minus the time derivative of the potential energy reported by EnergyMonitor, along every motion.", "quantifier": "all trees, masses, motions", "why_tests_cant": "It ranges over an unbounded input space; tests sample a few literals.", "anchors": ["arboris/controllers.py: WeightController", "arboris/observers.py: EnergyMonitor"]}
{"id": "C48", "title": "The constraint solver's velocities are the ones integrated", "statement": "At the end of update_constraints, the constraint velocity vector used by the solver equals the constraint jacobians applied to the velocity that integrate will compute, for any number of iterations and any mix of constraints; only enabled and active constraints contribute forces.", "quantifier": "all worlds, constraint sets, iteration counts", "why_tests_cant": "It must hold after every history of API calls; tests exercise a handful of scripts.", "anchors": ["arboris/core.py: World.update_constraints"]}
{"id": "C49", "title": "solve returns exactly the force increment it applied", "statement": "For each constraint type, solve(vel, admittance, dt) returns dforce = new force - previous force.", "quantifier": "all states and arguments", "why_tests_cant": "It ranges over an unbounded input space; tests sample a few literals.", "anchors": ["arboris/constraints.py: JointLimits.solve, BallAndSocketConstraint.solve, SoftFingerContact.solve"]}
{"id": "C50", "title": "Joint limits are enforced with Signorini conditions", "statement": "After JointLimits.solve, the predicted position is within [min,max], the force is >=0 at the lower limit, <=0 at the upper one and zero strictly inside.", "quantifier": "all positions, limits, velocities, admittances, joint dimensions", "why_tests_cant": "It ranges over an unbounded input space; tests sample a few literals.", "anchors": ["arboris/constraints.py: JointLimits.solve"]}
{"id": "C51", "title": "The ball-and-socket constraint closes the gap", "statement": "After BallAndSocketConstraint.solve, p01 + dt (vel + Y dforce) = 0 for every invertible Y; and the constraint velocity is the time derivative of the relative position p01, as documented.", "quantifier": "all gaps, velocities, admittances", "why_tests_cant": "It ranges over an unbounded input space; tests sample a few literals.", "anchors": ["arboris/constraints.py: BallAndSocketConstraint"]}
{"id": "C52", "title": "Soft-finger contact respects unilaterality, persistence and dissipation", "statement": "After SoftFingerContact.solve: no contact predicted => zero force; otherwise the normal gap at the end of the step is exactly zero; a sliding contact has tangential velocity opposed to the friction force; the friction force stays within the elliptic Coulomb cone; the normal force is never attractive.", "quantifier": "all contact states, admittances, friction coefficients", "why_tests_cant": "It ranges over an unbounded input space; tests sample a few literals.", "anchors": ["arboris/constraints.py: SoftFingerContact.solve"]}
{"id": "C53", "title": "Only approaching or near contacts are active", "statement": "PointContact.update marks the contact active iff the predicted gap sdist + dt*dsdist is below proximity, where dsdist is the normal component of the constraint velocity jacobian*gvel; the two contact frames are attached to the right bodies and expressed from the current poses.", "quantifier": "all poses, twists, shapes", "why_tests_cant": "It ranges over an unbounded input space; tests sample a few literals.", "anchors": ["arboris/constraints.py: PointContact.update"]}
{"id": "C54", "title": "Sphere-sphere collision geometry", "statement": "For distinct centres, sdist = |p1-p0|-r0-r1; the two contact frames are rigid, share their orientation with z along p1-p0, contact points lie on the respective spheres, the second is sdist along z from the first, and swapping the spheres gives the same distance; sdist is the minimal distance between points of disjoint spheres.", "quantifier": "all centres and radii", "why_tests_cant": "It ranges over an unbounded input space; tests sample a few literals.", "anchors": ["arboris/collisions.py: _sphere_sphere_collision"]}
{"id": "C55", "title": "Plane-sphere collision geometry", "statement": "For a plane a x+b y+c z+d=0 in its frame, sdist is the signed distance of the sphere to the plane, the contact frames are given relative to the ground with z along the plane normal, the first origin is on the plane, the second is the sphere point nearest to the plane, sdist along z from the first.", "quantifier": "all plane poses, coefficients, centres, radii", "why_tests_cant": "It ranges over an unbounded input space; tests sample a few literals.", "anchors": ["arboris/collisions.py: _plane_sphere_collision", "arboris/shapes.py: Plane"]}
{"id": "C56", "title": "Box-sphere collision geometry", "statement": "Outside the box, sdist+radius is the minimal distance from the centre to the points of the box; inside it is minus the distance to the nearest face; the contact frame normal and points are expressed in the ground frame.", "quantifier": "all box poses, sizes, centres, radii", "why_tests_cant": "It ranges over an unbounded input space; tests sample a few literals.", "anchors": ["arboris/collisions.py: _box_sphere_collision"]}
{"id": "C57", "title": "hsv_to_rgb yields a valid colour with the right value and chroma", "statement": "For h any real, s,v in [0,1], hsv_to_rgb returns three numbers in [0,1] with max v and min v(1-s), periodic in h.", "quantifier": "all hsv triples", "why_tests_cant": "It ranges over an unbounded input space; tests sample a few literals.", "anchors": ["arboris/visu/world_drawer.py: hsv_to_rgb"]}
{"id": "C58", "title": "Object colours are stable", "statement": "ColorGenerator.get_color(obj) returns the same colour on every later call whatever happens in between (no set_color), all frames and shapes of a body without own colour share the body's colour, and the first nb_colors bodies get distinct palette entries.", "quantifier": "all histories of get_color", "why_tests_cant": "It must hold after every history of API calls; tests exercise a handful of scripts.", "anchors": ["arboris/visu/world_drawer.py: ColorGenerator"]}
{"id": "C59", "title": "The drawn scene graph matches the world", "statement": "For every world drawn through World.parse, Drawer never looks up a missing node, and the product of the transforms from the root to a drawn node is the pose of the corresponding frame (flat or not).", "quantifier": "all worlds, flat and hierarchical mode", "why_tests_cant": "It ranges over an unbounded input space; tests sample a few literals.", "anchors": ["arboris/visu/world_drawer.py: Drawer"]}
{"id": "C60", "title": "The snake robot is a chain of the requested size", "statement": "add_snake(w,n,...) adds exactly n hinge links in one chain (plus a free base when not fixed), with n (resp. n+6) dofs, and at zero angles the end frame of the fixed snake is at (0, sum of lengths, 0).", "quantifier": "all n, lengths, masses", "why_tests_cant": "It ranges over an unbounded input space; tests sample a few literals.", "anchors": ["arboris/robots/snake.py: add_snake"]}
{"id": "C61", "title": "EnergyMonitor accepts every world simulate accepts", "statement": "EnergyMonitor.init never raises for a world whose bodies were accepted by Body(), in particular for the default (massless) bodies.", "quantifier": "all worlds", "why_tests_cant": "It ranges over an unbounded input space; tests sample a few literals.", "anchors": ["arboris/observers.py: EnergyMonitor.init", "arboris/massmatrix.py: principalframe, ismassmatrix"]}
{"id": "C62", "title": "A URDF robot is loaded as described, under any prefix", "statement": "URDFConverter.load_in_world creates one body per link with the mass matrix of the file and connects each joint's parent and child links whatever prefix/suffix is requested; in every configuration each link is at the joint origin of the file moved along or about the axis of the file; limits and collision shapes are registered.", "quantifier": "all robots, prefixes and suffixes", "why_tests_cant": "It ranges over an unbounded input space; tests sample a few literals.", "anchors": ["arboris/robots/urdf/__init__.py: URDFConverter.load_in_world"]}
{"id": "C63", "title": "The mechanical energy obeys the energy balance", "statement": "Along every motion obeying the equation of motion M a + (N+B) v = gforce of the matrices the world computes, under WeightController(-9.81), the mechanical energy recorded by EnergyMonitor decreases at the rate v'Bv of the viscous dissipation; without viscosity it is constant.", "quantifier": "all trees, masses, motions", "why_tests_cant": "It ranges over an unbounded input space; tests sample a few literals.", "anchors": ["arboris/core.py: World.update_dynamic", "arboris/controllers.py: WeightController", "arboris/observers.py: EnergyMonitor"]}
{"id": "C64", "title": "CoMObserver reports the centre of mass and its jacobian", "statement": "After each update, get_CoMPosition() is the mass-weighted mean of the centres of mass of the bodies, get_CoMJacobian() times gvel is its velocity along every motion.", "quantifier": "all trees, body lists, masses and motions", "why_tests_cant": "It ranges over an unbounded input space; tests sample a few literals.", "anchors": ["arboris/observers.py: CoMObserver"]}
{"id": "C65", "title": "Observers do not influence the simulated motion", "statement": "simulate(world, timeline, observers) ends with the same generalized positions and velocities as simulate(world, timeline, []) for the library's recorders, loggers and monitors.", "quantifier": "all worlds, timelines, lists of observers", "why_tests_cant": "It must hold after every history of API calls; tests exercise a handful of scripts.", "anchors": ["arboris/core.py: simulate", "arboris/observers.py: all observers"]}
{"id": "C66", "title": "A URDF file relying on the format's defaults loads", "statement": "URDFConverter.load_in_world accepts a robot whose file leaves out what the URDF format makes optional: the axis of a joint, the axis of a fixed joint, a continuous or planar joint, the position or the angles of an origin.", "quantifier": "all parsed robots", "why_tests_cant": "It ranges over an unbounded input space; tests sample a few literals.", "anchors": ["arboris/robots/urdf/__init__.py: to_arboris, URDFConverter.load_in_world", "arboris/robots/urdf/urdf_parser.py: Joint, Pose"]}
{"id": "C67", "title": "The parsed URDF tree, its root and its chains are those of the file", "statement": "For every file describing a tree, whatever the order of its elements, the parser keeps every link and joint; get_root() is the unique link that is no joint's child (AssertionError when there is none or several); get_chain(root, tip) lists the links and joints met from root down to tip in order, and raises KeyError when tip is not below root.", "quantifier": "all files, all orders of elements, all pairs of links", "why_tests_cant": "It ranges over an unbounded input space; tests sample a few literals.", "anchors": ["arboris/robots/urdf/urdf_parser.py: URDF.add_link, URDF.add_joint, URDF.get_root, URDF.get_chain"]}
{"id": "C68", "title": "The humanoid has the requested size, mass and symmetry", "statement": "add_human36(world, height, mass, anat_lengths, name) adds 17 bodies linked by the documented skeleton with 42 dofs, whatever the world held before; the bodies weigh mass in total; with all angles zero the soles are on the ground, the vertex is at the height, and with equal side lengths the left side mirrors the right one, with the same inertias up to the hands; its 45 frames, 17 joints and 8 shapes have distinct names, never shared with a humanoid of another prefix; unequal legs and negative masses are refused without touching the world.", "quantifier": "all worlds, heights, masses, lengths, prefixes", "why_tests_cant": "It ranges over an unbounded input space; tests sample a few literals.", "anchors": ["arboris/robots/human36.py: add_human36, anat_lengths_from_height, height_from_anat_lengths"]}
{"id": "C69", "title": "isadjointmatrix recognises exactly the adjoint matrices", "statement": "adjointmatrix.isadjointmatrix(Ad) is true exactly for the adjoints of homogeneous matrices, and adjointmatrix.inv inverts every matrix it accepts.", "quantifier": "all 6x6 matrices", "why_tests_cant": "It ranges over an unbounded input space; tests sample a few literals.", "anchors": ["arboris/adjointmatrix.py: isadjointmatrix, inv"]}
{"id": "C70", "title": "ismassmatrix decides definiteness", "statement": "ismassmatrix(M) is true exactly when M is symmetric positive definite (semi-definite with semi=True) with a scalar translational block, up to the tolerance of allclose.", "quantifier": "all 6x6 matrices", "why_tests_cant": "It ranges over an unbounded input space; tests sample a few literals.", "anchors": ["arboris/massmatrix.py: ismassmatrix"]}
{"id": "C71", "title": "The planar arm has the requested rods and reaches where its angles say", "statement": "add_simplearm(world, name, lengths, masses) adds three bodies in a chain of hinges from the ground (3 dofs) whatever the world held before; every rod is a homogeneous box with the requested length and mass, its base at the joint, and its shape (if asked for) is the same box at the same place; in every configuration the end effector is at the sum of the rods turned by the partial sums of the angles, so within reach of the total length; refused arguments leave the world unchanged when no shapes are asked for.", "quantifier": "all worlds, lengths, masses, configurations", "why_tests_cant": "It ranges over an unbounded input space; tests sample a few literals.", "anchors": ["arboris/robots/simplearm.py: add_simplearm"]}
{"id": "C72", "title": "A solid added to the world is one free body with a matching shape", "statement": "add_sphere, add_box and add_cylinder add exactly one body, linked to the ground by a free joint (6 dofs), whose mass matrix is that of the homogeneous solid with the dimensions of the registered shape; a negative mass is refused without touching the world; add_groundplane only registers a plane through the origin of the ground, normal to world.up.", "quantifier": "all worlds, dimensions, masses", "why_tests_cant": "It ranges over an unbounded input space; tests sample a few literals.", "anchors": ["arboris/robots/simpleshapes.py: add_sphere, add_box, add_cylinder, add_groundplane"]}
{"id": "C73", "title": "A contact sees the shapes where they are", "statement": "For every pair of shapes for which choose_solver gives a solver, whatever the order of the arguments and the poses of their frames in the current state: the collision solver returns a positive distance iff the two solids have no common point, it is then the distance between them; for a plane it is the least height of the points of the sphere above the plane. A contact between the shapes is then activated exactly when this distance, corrected by its rate over the step, is below the proximity: at rest, always when the solids share a point, never when they are further than the proximity.", "quantifier": "all shapes, frames, configurations, velocities, steps", "why_tests_cant": "It ranges over an unbounded input space; tests sample a few literals.", "anchors": ["arboris/collisions.py: choose_solver, _sphere_sphere_collision, _box_sphere_collision, _plane_sphere_collision", "arboris/constraints.py: SoftFingerContact.update, PointContact"]}
{"id": "C74", "title": "The iCub is built as described", "statement": "For every world and every order in which its four tables are walked, robots.icub.add succeeds and adds exactly 32 bodies and 32 hinges (33 and a free joint when it is not fixed), linked as the torso, the neck, two arms and two legs; each body has the mass and the inertia of its homogeneous parts (27.197066 in all, 26.994096 when fixed); the requested shapes and contacts are registered, each on its body; the poses are those of the chain of Denavit-Hartenberg transforms for every configuration; with the same angles the right limbs are the mirror images of the left ones; at zero the robot stands with level soles 0.5975 below the waist; the limits have one proper range for each joint and are the same on both sides; its named frames and its joints have different names.", "quantifier": "all worlds, orders of the dicts, options, configurations", "why_tests_cant": "It ranges over an unbounded input space; tests sample a few literals.", "anchors": ["arboris/robots/icub.py: add, get_bodies_data, get_joints_data, get_bodies_shapes_data, get_contact_data, get_joint_limits, get_torque_limits, T_DH"]}
{"id": "C75", "title": "The iCub starts within its limits and its shapes have different names", "statement": "The configuration in which robots.icub.add builds the robot is within the joint limits it publishes, and the shapes it registers have different names.", "quantifier": "all worlds, orders of the dicts, options", "why_tests_cant": "It ranges over an unbounded input space; tests sample a few literals.", "anchors": ["arboris/robots/icub.py: add, get_joint_limits, get_bodies_shapes_data"]}
{"id": "C76", "title": "The two hands of the humanoid have the same inertia", "statement": "With equal lengths on both sides, the mass matrix of the right hand of a humanoid is the mirror image of that of the left hand, as for every other pair of segments.", "quantifier": "all heights, masses, lengths", "why_tests_cant": "It ranges over an unbounded input space; tests sample a few literals.", "anchors": ["arboris/robots/human36.py: add_human36, _humansegments"]}
{"id": "C77", "title": "A refused planar arm leaves no trace", "statement": "If add_simplearm refuses its arguments, the world is as it was before the call.", "quantifier": "all worlds and arguments", "why_tests_cant": "It must hold after every history of API calls; tests exercise a handful of scripts.", "anchors": ["arboris/robots/simplearm.py: add_simplearm"]}
{"id": "C78", "title": "Every accepted mass matrix belongs to a rigid body", "statement": "Every matrix accepted by ismassmatrix is the mass matrix of some rigid body (mass, centre of mass, inertia).", "quantifier": "all matrices", "why_tests_cant": "It ranges over an unbounded input space; tests sample a few literals.", "anchors": ["arboris/massmatrix.py: ismassmatrix"]}
{"id": "C79", "title": "CoMObserver's jacobian derivative is the derivative", "statement": "Along every motion with q' = gvel, get_CoMdJacobian() is the time derivative of get_CoMJacobian().", "quantifier": "all worlds and motions", "why_tests_cant": "It ranges over an unbounded input space; tests sample a few literals.", "anchors": ["arboris/observers.py: CoMObserver"]}
{"id": "C80", "title": "The non-linear effects of a world do no work", "statement": "For a whole world and every motion with q' = gvel, (1/2)gvel' (dM/dt) gvel = gvel' N gvel, so the power of the generalized forces is the rate of kinetic energy.", "quantifier": "all worlds, configurations, velocities", "why_tests_cant": "It ranges over an unbounded input space; tests sample a few literals.", "anchors": ["arboris/core.py: World.update_dynamic, Body.update_dynamic"]}
{"id": "C81", "title": "A collada file shows every shape where it is", "statement": "For every world and both drivers, the file written holds one instance for each shape of the world, below the node of its frame: at the current poses it covers exactly the ball of a sphere, the box, the cylinder, and for a plane a square of it centred at the foot of its origin, with the colour given to the shape by the colour generator; a point is a small ball. The vertical axis written is the one of the world.", "quantifier": "all worlds, shapes, sizes, configurations, both drivers, flat or not", "why_tests_cant": "It ranges over an unbounded input space; tests sample a few literals.", "anchors": ["arboris/visu/dae_writer.py: pydaenimColladaDriver.create_sphere, create_box, create_cylinder, create_plane, create_point, add_ground", "arboris/visu/visu_collada.py: DaenimColladaDriver"]}
{"id": "C82", "title": "A collada file describes the masses of the bodies", "statement": "For every world whose mass matrices are those of rigid bodies, the file holds one rigid body for each body that has a mass, with its mass, its centre of mass, its principal moments of inertia and the orientation of its principal axes (exactly away from the gimbal band, within 2 tol in it); the Daenim driver also draws for each of them the ellipsoid whose half axes are proportional to its principal moments, at its principal frame.", "quantifier": "all worlds and mass matrices, both drivers", "why_tests_cant": "It ranges over an unbounded input space; tests sample a few literals.", "anchors": ["arboris/visu/dae_writer.py: create_inertia", "arboris/visu/visu_collada.py: create_inertia"]}
{"id": "C83", "title": "A collada file shows the links and the frames", "statement": "For every world, the file of the Daenim driver holds one segment for each subframe off its body, from the body to the subframe at the current poses, and for each frame but the ground its three axes, of the same length.", "quantifier": "all worlds and configurations, flat or not", "why_tests_cant": "It ranges over an unbounded input space; tests sample a few literals.", "anchors": ["arboris/visu/visu_collada.py: create_line, create_frame_arrows", "arboris/visu/dae_writer.py: create_line, create_frame_arrows"]}
{"id": "C84", "title": "The ids of a collada file are unique", "statement": "For every world, if no name is shared then each frame of the world gets a node whose id is its name, the ids are unique, and they are exactly the names; if names are shared the ids are made unique with suffixes.", "quantifier": "all worlds and names, both drivers", "why_tests_cant": "It ranges over an unbounded input space; tests sample a few literals.", "anchors": ["arboris/visu/dae_writer.py: _get_collada_id, create_transform", "arboris/visu/visu_collada.py: DaenimColladaDriver"]}
{"id": "C85", "title": "A collada animation replays the simulation", "statement": "For every world, drawn by write_collada_scene (either driver, flat or not) and then simulated with a SaveLogger of the same mode, write_collada_animation makes a file whose instants are those of the steps and in which, at the k-th instant, the node of every frame of the world, moving subframes included, is shown where the frame was at the k-th step, provided no two objects share a name and no frame is called as the ground.", "quantifier": "all worlds, names, simulations, timelines, controllers and constraints, both drivers", "why_tests_cant": "It ranges over an unbounded input space; tests sample a few literals.", "anchors": ["arboris/visu/dae_writer.py: write_collada_scene, write_collada_animation, write_collada_animation_from_transforms", "arboris/visu/visu_collada.py: write_collada_scene, view", "arboris/observers.py: SaveLogger"]}
{"id": "C86", "title": "What an Hdf5Logger saves can be read back", "statement": "At the end of every simulation with an Hdf5Logger, the data it recorded is written in the file with the documented layout and shapes: the animation writer reads back exactly the times and the transforms of the steps; gpositions, gvelocities and model are stored with one row per step; the logger can be used again.", "quantifier": "all worlds, simulations, options, names, files given to the logger and orders of the dictionaries", "why_tests_cant": "It ranges over an unbounded input space; tests sample a few literals.", "anchors": ["arboris/observers.py: SaveLogger, Hdf5Logger.finish", "arboris/visu/dae_writer.py: write_collada_animation"]}
{"id": "C87", "title": "The viewer shows the simulation as it runs", "statement": "At each step, the message a DaenimCom observer sends to the viewer has one line per moved object, and the viewer that applies it to the scene written before shows each frame of the world where it is at this step (up to the rounding of the printed numbers); this does not depend on the names of the objects, and a viewer that never connects does not prevent the simulation and the other observers to end.", "quantifier": "all worlds, scenes, modes, simulations, steps and names", "why_tests_cant": "It ranges over an unbounded input space; tests sample a few literals.", "anchors": ["arboris/visu/visu_collada.py: DaenimCom, packing_transform", "arboris/observers.py: SocketCom"]}
{"id": "C88", "title": "Kinematic arrays read from a world are snapshots", "statement": "Reading pose, twist, jacobian, djacobian, bpose or nleffects of a frame or a body, world.gvel, world.gforce or world.admittance, or the position of a free joint, gives an array holding the value of the property; whatever is called afterwards (updates, integration, controllers, contacts, moving frames, init, failing calls), this array keeps its content, so that someone who keeps the arrays of successive steps without copying them has the true history.", "quantifier": "all worlds whose arrays are not shared by the user, readings and histories of calls", "why_tests_cant": "It ranges over an unbounded input space; tests sample a few literals.", "anchors": ["arboris/core.py: Body, SubFrame, MovingSubFrame, World.update_geometric, World.update_dynamic, World.update_controllers, World.update_constraints, World.integrate, World.init", "arboris/joints.py: FreeJoint.integrate"]}
{"id": "C89", "title": "Matrices of the world read and kept", "statement": "world.mass, world.viscosity, world.nleffects and the gpos of a joint are the arrays of the world themselves: kept by a user, they always show the current values (until the next init for the matrices), and someone who keeps them at each step has at the end as many times the last value. The expectation that a kept world.mass is the mass matrix of the time it was read is false.", "quantifier": "all worlds, readings and histories of calls", "why_tests_cant": "It ranges over an unbounded input space; tests sample a few literals.", "anchors": ["arboris/core.py: World.mass, World.viscosity, World.nleffects, World.update_dynamic, LinearConfigurationSpaceJoint.integrate"]}
{"id": "C90", "title": "Moving a frame moves that frame only", "statement": "Setting the bpose of a moving subframe gives it this pose and changes the pose of no other frame, as long as each frame was made from an array of its own; frames made from the same array move together, even rigid subframes.", "quantifier": "all worlds, frames and poses", "why_tests_cant": "It ranges over an unbounded input space; tests sample a few literals.", "anchors": ["arboris/core.py: _SubFrame.__init__, MovingSubFrame.bpose"]}
{"id": "C91", "title": "A generated matlab robot is the robot", "statement": "MatlabRobotGenerator.make_robot, given a robot whose first joint is free and whose other joints are hinges (at least one), writes exactly one body description per joint, in an order and with (branch, rank) indices without hole, where each body is mounted on the body that carries it, with the axis of its joint, the poses of the two frames, the inertia in the matlab order, each shape on its body with its dimensions, and the position and velocity of the robot. Other robots are refused: nothing is written if the first joint is not free, otherwise the text says at its end that it must not be used.", "quantifier": "all robots (trees of bodies and joints of any size), scenes, states and names", "why_tests_cant": "It ranges over an unbounded input space; tests sample a few literals.", "anchors": ["matlab/convert_py2mat.py: MatlabRobotGenerator.make_robot, _traverse, _add_link, _add_shapes, _finish, _flip"]}
{"id": "C92", "title": "A generated matlab simulation is the simulation", "statement": "MatlabSimulationGenerator.generate_simulation accepts exactly the timelines of at least two equally spaced dates, worlds with one robot, no constraint and no controller but the weight; it writes the start, the step, the end (half a step before the last date), the acceleration of the gravity along world.up and the robot of the world. Everything else is refused before anything is written.", "quantifier": "all timelines, worlds, controllers and names", "why_tests_cant": "It ranges over an unbounded input space; tests sample a few literals.", "anchors": ["matlab/convert_py2mat.py: MatlabSimulationGenerator.generate_simulation"]}
{"id": "C93", "title": "Converting a robot to matlab joints keeps its kinematics", "statement": "MatlabConverter.convert_robot, given a robot whose first joint is free, succeeds; the robot becomes the same tree where each joint made of two or three hinges is replaced, between the same frames, by these hinges in series through new bodies, named after it, and the rest of the world is as before. With the new hinges at the positions and speeds of the joints that they replace every body of the world has the pose, the Jacobian and the twist that it had. If the joints were hinges or made of hinges, and the shapes on the robot, the result is accepted by MatlabRobotGenerator. Given a robot whose first joint is not free, it puts a body of 10000 kg in a free joint between the ground and this joint, and registers a box, four spheres and four contacts.", "quantifier": "all worlds built with the API, robots of any size, states of the joints", "why_tests_cant": "It ranges over an unbounded input space; tests sample a few literals.", "anchors": ["matlab/convert_py2mat.py: MatlabConverter.convert_robot, convert_root_joint, convert_nonroot_joint, _traverse"]}
{"id": "C94", "title": "What is read from an URDF document", "statement": "URDF.parse_xml_string reads a document exactly when its first node is an element and every link, joint and material in it is well formed (numbers that can be read, a shape in each geometry), elements that do not count included. The robot has the name of the document and its links, joints and materials in order, with the numbers and texts of their attributes, None for what is absent; in each element the last child of each name counts; the dictionaries have the last element of each name. Texts, comments and unknown elements never change what is read.", "quantifier": "all documents, of any size and depth, any texts of numbers", "why_tests_cant": "It ranges over an unbounded input space; tests sample a few literals.", "anchors": ["arboris/robots/urdf/urdf_parser.py: URDF.parse_xml_string, children, the parse methods"]}
{"id": "C95", "title": "Writing an URDF robot and reading it again", "statement": "For a robot made of links, joints and materials with ASCII texts URDF.to_xml succeeds, and what is read from the document, whatever texts are put between the elements, is a robot with the same name and the same elements in the same order, the numbers being as printed; if the numbers are printed exactly and joints have a parent, a child and no mimic, it is the same robot, dictionaries included.", "quantifier": "all robots made with the API or read from a document", "why_tests_cant": "It ranges over an unbounded input space; tests sample a few literals.", "anchors": ["arboris/robots/urdf/urdf_parser.py: URDF.to_xml, set_attribute, pfloat, the to_xml methods, URDF.add_link, add_joint, add_material"]}
{"id": "C96", "title": "The visual and collision shapes of an URDF robot", "statement": "URDFConverter.get_visual_shapes and get_collision_shapes return exactly one item per link that has a visual (a collision) element: in the frame of the link (its name with prefix and suffix), placed at the origin the element gives (identity without it), with the mesh and the scale of its geometry; for a mesh, the file beside the URDF file. Added to the scene, the item of a sphere or a cylinder covers exactly the solid that the file describes.", "quantifier": "all documents and robots, all poses of the links", "why_tests_cant": "It ranges over an unbounded input space; tests sample a few literals.", "anchors": ["arboris/robots/urdf/__init__.py: URDFConverter.__init__, parseURDF, get_visual_shapes, get_collision_shapes, to_arboris", "arboris/visu/dae_writer.py: add_shapes_to_dae"]}
{"id": "C97", "title": "The limits of the joints of an URDF robot", "statement": "URDFConverter.get_joint_limits, get_effort_limits and get_velocity_limits associate to every joint of the file, under its name with prefix and suffix, the limits that the file gives it (position limits only where both are given), and to nothing else.", "quantifier": "all documents, all prefixes and suffixes", "why_tests_cant": "It ranges over an unbounded input space; tests sample a few literals.", "anchors": ["arboris/robots/urdf/__init__.py: URDFConverter.get_joint_limits, get_effort_limits, get_velocity_limits"]}
{"id": "C98", "title": "Adding shapes to a collada scene", "statement": "add_shapes_to_dae writes a document that displays exactly what the input displays and, for each item whose frame and shape exist, the contents of the shape (a node of a file, or its whole scene) at the pose of the frame followed by the transform and the scale of the item; with the name of a file, each of its nodes that has the id of a node of the scene is added at this node. Items whose frame or shape is unknown change nothing, and every reference of the written document is right.", "quantifier": "all scenes, of any depth, all files of shapes, all lists of items", "why_tests_cant": "It ranges over an unbounded input space; tests sample a few literals.", "anchors": ["arboris/visu/dae_writer.py: add_shapes_to_dae, _get_all_nodes, _get_void_node, _save_all_descendant_geometryNode, _get_good_id_uri"]}
{"id": "C99", "title": "A simulation can be interrupted and resumed", "statement": "simulate(world, t0...t1) followed by simulate(world, t1...t2) on the same world ends like the single simulate(world, t0...t1...t2): same positions, velocities, time, poses, contact forces and data of the controllers, the same exception if a step of the second part raises, and the same World.mass, nleffects, gforce, admittance as soon as the second part makes a step. World.init forgets nothing of the motion.", "quantifier": "all worlds built by the API, all setups, all timelines, all memoryless user controllers, all observers", "why_tests_cant": "It ranges over an unbounded input space; tests sample a few literals.", "anchors": ["arboris/core.py: simulate, World.init, World.update_dynamic, World.update_controllers, World.update_constraints, World.integrate", "arboris/constraints.py: init of each class", "arboris/controllers.py: init of each class"]}
{"id": "C100", "title": "The summary of the performance monitor", "statement": "A PerfMonitor given to simulate adds the duration of each step, by the clock, to its history: after any simulations get_summary tells their total (the sum of the times from the start to the last step of each), and a minimum, mean and maximum with minimum <= mean <= maximum, over all the steps since its creation; before the first step it raises ValueError. With log=True it logs the time at which each step starts.", "quantifier": "all clocks (even going back), all simulations and sequences of simulations, all positions among the observers", "why_tests_cant": "It ranges over an unbounded input space; tests sample a few literals.", "anchors": ["arboris/observers.py: PerfMonitor", "arboris/core.py: simulate"]}
{"id": "C101", "title": "A robot moves the same way wherever it stands", "statement": "simulate run on two worlds that differ only by where the robot stands -- the frames of the ground that carry it, or the position of its free root joint, displaced by the same rigid motion G (keeping the vertical if there is a WeightController) -- gives the same outcome (the same exception too), the same joint positions and velocities, time, mass matrix, forces and constraint forces, the positions of the displaced free joints and the poses of all the bodies being those of the first world displaced by G, their jacobians and twists the same. PD controllers, controllers that do not look at the place of the robot, joint limits, and ball and sockets between frames that are displaced too may be present.", "quantifier": "all robots (all trees), rigid motions, states, timelines, numpy functions", "why_tests_cant": "It ranges over an unbounded input space; tests sample a few literals.", "anchors": ["arboris/core.py: simulate, World.update_dynamic, World.update_controllers, World.update_constraints, World.integrate, Body.update_dynamic", "arboris/joints.py: FreeJoint", "arboris/controllers.py: WeightController.update", "arboris/constraints.py: BallAndSocketConstraint"]}
{"id": "C102", "title": "A robot at rest without forces stays at rest", "statement": "A robot whose joints have null velocities, without gravity, whose PD controllers are asked to hold its position with a null velocity, whose other controllers apply no force in this state, and whose constraints are disabled or joint limits that are not near, does not move when it is simulated, whatever the timeline: the positions of all its joints (free ones too) are not changed, and the velocities of the joints and of the world remain null.", "quantifier": "all robots (all trees, joint types), positions, gains, timelines, numpy functions, also when a step raises", "why_tests_cant": "It ranges over an unbounded input space; tests sample a few literals.", "anchors": ["arboris/core.py: simulate, World.init, World.update_controllers, World.update_constraints, World.integrate", "arboris/controllers.py: ProportionalDerivativeController.update", "arboris/constraints.py: JointLimits.is_active", "arboris/joints.py: FreeJoint.integrate", "arboris/twistvector.py: exp"]}
{"id": "C103", "title": "Robots that do not touch each other do not interact", "statement": "In the mass, viscosity and nonlinear effects matrices of a world, the entries between the degrees of freedom of two joints that carry no common body (other branches of a robot, or other robots) are null. And the motion of robots that share a world with others, under gravity, PD controllers (each on the joints of these robots, or of the others) and user controllers that do not link them, without constraints or free joints, does not depend on the others: whatever the classes, masses, frames, gains, positions and velocities of the other robots, the selected robots have the same positions and velocities at the end of a simulation along the same timeline.", "quantifier": "all trees, joint types, masses, frames, positions, velocities, gains and timelines, all selections of whole robots", "why_tests_cant": "It ranges over an unbounded input space; tests sample a few literals.", "anchors": ["arboris/core.py: World.update_dynamic, Body.update_dynamic, World.update_controllers, World.integrate, simulate", "arboris/controllers.py: WeightController, ProportionalDerivativeController"]}
{"id": "C104", "title": "The order in which controllers are registered does not matter", "statement": "If a simulation of a world ends normally, then the same simulation of the same world built with the controllers registered in another order ends normally too, and in the same state: positions, velocities, generalized forces, impedance, constraint forces and time. This holds for every mix of weight, proportional-derivative and user controllers (that do not look at the list of the controllers), for every constraint and every joint.", "quantifier": "all worlds, joint types, constraints, controllers, timelines and permutations of the registration order", "why_tests_cant": "It ranges over an unbounded input space; tests sample a few literals.", "anchors": ["arboris/core.py: World.register, World.init, World.update_controllers, simulate", "arboris/controllers.py: WeightController, ProportionalDerivativeController"]}
{"id": "C105", "title": "The instant at which a simulation starts does not matter", "statement": "If all the instants of a timeline are shifted by the same duration, the simulation of the same world has the same outcome (a normal end, or the same error) and ends in the same state: same positions, velocities, forces, matrices and constraint forces; only the clock of the world is shifted. This holds for every mix of weight, proportional-derivative and user controllers (that do not look at the clock), for every constraint and every joint.", "quantifier": "all worlds, joint types, constraints, controllers, timelines and shifts", "why_tests_cant": "It ranges over an unbounded input space; tests sample a few literals.", "anchors": ["arboris/core.py: World.init, World.update_dynamic, World.update_controllers, World.update_constraints, World.integrate, simulate"]}
{"id": "C106", "title": "The unit of mass does not matter", "statement": "If a world is described in another unit of mass (the masses and viscosities of the bodies, the gains of the proportional-derivative controllers and the forces and impedances of the user controllers are multiplied by the same positive number), its simulation has the same outcome (a normal end, or the same error) and the same motion: the same positions and velocities at the end, while the mass, viscosity, nonlinear effects and impedance matrices and the generalized forces are multiplied by that number, and the admittance divided by it.", "quantifier": "all worlds whose constraints are joint limits and ball-and-socket constraints (none or many), joint types, masses, controllers, timelines and positive factors", "why_tests_cant": "It ranges over an unbounded input space; tests sample a few literals.", "anchors": ["arboris/core.py: Body.update_dynamic, World.update_dynamic, World.update_controllers, World.integrate, simulate", "arboris/controllers.py: WeightController, ProportionalDerivativeController"]}
{"id": "C107", "title": "Names, frames and shapes are only decoration", "statement": "Registering frames and shapes in a world, or naming its objects otherwise, does not change its simulations: the outcome is the same (a normal end, or the same error) and so is the final state. In particular shapes act only through the constraints that use them. This holds for every joint, constraint and mix of controllers (user controllers that do not look at the registered frames and shapes).", "quantifier": "all worlds, joint types, constraints, controllers, timelines, registered frames and shapes, and names", "why_tests_cant": "It ranges over an unbounded input space; tests sample a few literals.", "anchors": ["arboris/core.py: World.register, World.init, World.update_dynamic, World.update_controllers, World.update_constraints, World.integrate, simulate"]}
{"id": "C108", "title": "A disabled constraint is an absent constraint", "statement": "The simulation of a world and the simulation of the same world without its disabled joint limits and ball-and-socket constraints have the same outcome (a normal end, or the same error) and end in the same state, whatever the other constraints (contacts, disabled or not, included), the controllers and the joints. Registering a constraint and disabling it has no effect on the motion.", "quantifier": "all worlds, joint types, constraints, controllers (user controllers that do not look at the disabled constraints) and timelines", "why_tests_cant": "It ranges over an unbounded input space; tests sample a few literals.", "anchors": ["arboris/core.py: Constraint.enable, Constraint.disable, World.update_constraints, World.init, simulate", "arboris/constraints.py: JointLimits, BallAndSocketConstraint"]}
{"id": "C109", "title": "Gravities add up", "statement": "If the simulation of a world with two weight controllers, of gravities g1 and g2, ends normally, the simulation of the same world where the two are replaced by one weight controller of gravity g1+g2 ends normally too, in the same state: same positions, velocities, forces, matrices and time, whatever the other controllers, the constraints, the joints, the masses and the order of registration. A weight controller of gravity 0 can be removed without any effect.", "quantifier": "all worlds, joint types, masses, constraints, other controllers (user controllers that do not look at the list of controllers), gravities and timelines", "why_tests_cant": "It ranges over an unbounded input space; tests sample a few literals.", "anchors": ["arboris/controllers.py: WeightController.init, WeightController.update", "arboris/core.py: World.update_controllers, World.init, simulate"]}
