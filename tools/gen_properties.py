# generates properties.jsonl ; plain data, run: python3 tools/gen_properties.py > properties.jsonl
import json
P=[]
def p(title, statement, quantifier, why, anchors):
    P.append(dict(id="C%02d"%(len(P)+1), title=title, statement=statement, quantifier=quantifier, why_tests_cant=why, anchors=anchors))
core="arboris/core.py"; hg="arboris/homogeneousmatrix.py"; jn="arboris/joints.py"; mm="arboris/massmatrix.py"
cs="arboris/constraints.py"; co="arboris/collisions.py"; ct="arboris/controllers.py"; ob="arboris/observers.py"; tw="arboris/twistvector.py"
inf="It ranges over an unbounded input space; tests sample a few literals."
hist="It must hold after every history of API calls; tests exercise a handful of scripts."

# ---- names
p("Name lookup returns the first match","For a NamedObjectsList L and a string n, L[n] is the object at the smallest index among the NamedObjects of L whose name is n, and raises KeyError exactly when there is none; L.find(n) is the sublist, in order, of all such objects. Objects that are not NamedObjects, and unnamed ones, never match a string. L[i] for an integer is the element at i, counted from the end when negative, IndexError outside.","all lists (any length, duplicate and missing names, foreign objects) and all names",inf,[core+": NamedObjectsList.__getitem__, find"])
p("as_dict maps every name or reports duplicates","L.as_dict() returns exactly the mapping name -> object of the named objects when names are pairwise distinct (unnamed and foreign objects ignored); when two named objects share a name it raises DuplicateNameError, as documented.","all lists",inf,[core+": NamedObjectsList.as_dict, DuplicateNameError"])
p("name_all_elements names everything and detects duplicates","On a list: afterwards every element has a name, elements that had a name keep it, order is unchanged; with check_unicity it raises DuplicateNameError exactly when two elements end up with the same name, and the reported list contains each name exactly (occurrences - 1) times.","all lists of named/unnamed elements, any identity-derived default names",inf,[core+": name_all_elements"])
p("Duplicate-name detection works for every iterable","name_all_elements(it, True) detects duplicate names whatever iterable it is given, in particular the one-shot generators (World.iterbodies(), World.itermovingsubframes()) the loggers pass to it.","all iterables (lists and one-shot generators)","Existing tests only pass lists; the generator path silently passes.",[core+": name_all_elements", ob+": SaveLogger.init"])
# ---- world structure
p("The world stays a tree","Starting from fresh objects, after any sequence of add_link / replace_joint / register / init calls in which no add_link attaches an ancestor of (or the same body as) its own parent frame, every body belongs to exactly one finite rooted tree: a body has at most one parent joint, it is listed exactly once among the children of the body of that joint's frame0, and parent and child links agree.","all histories of successful structural calls",hist,[core+": World.add_link, World.replace_joint, Body"])
p("add_link rejects kinematic loops","add_link never leaves the world with a cycle: linking to a body that already has a parent joint, or to a body that already contains the parent frame's body in its subtree (including the ground itself), is refused with ValueError.","all worlds and links",hist,[core+": World.add_link"])
p("add_link adds exactly one leaf link and nothing else","A successful add_link(f0,j,f1) appends j at the end of the children of f0's body, makes it the parent joint of f1's body, sets j's frames, registers f0 and f1 if they are subframes, and changes no other parent/child relation; with extra arguments it is equivalent to the successive single calls.","all worlds, frames, joints, argument lists",hist,[core+": World.add_link"])
p("A refused add_link leaves no trace","If add_link raises, the world and the joint are as they were before the call, so that the call can be corrected and retried.","all worlds and failing calls",hist,[core+": World.add_link"])
p("Depth-first traversal visits everything once, parents first","iterbodies / iterjoints (and Body.iter_descendant_*) enumerate each body / joint of the tree exactly once, in depth-first order: a body after its parent, siblings in insertion order, a whole subtree before the next sibling.","all trees of any shape and depth",inf,[core+": Body.iter_descendant_bodies, iter_descendant_joints, World.iterbodies, iterjoints"])
p("Ancestor iteration walks to the root","iter_ancestor_bodies / iter_ancestor_joints of a body yield exactly the bodies / joints on the path from the body to the root, nearest first, and a body b is an ancestor of c iff c is a descendant of b.","all trees, all bodies",inf,[core+": Body.iter_ancestor_bodies, iter_ancestor_joints"])
p("replace_joint substitutes in place","replace_joint(old,new) leaves the tree shape unchanged, the new joint takes the old joint's position among its siblings and its frames, the old joint is detached, no other joint or body is affected, and the dofs are re-indexed.","all worlds, all joints, both syntaxes",hist,[core+": World.replace_joint"])
p("replace_joint is all-or-nothing","If replace_joint raises, the old joint is still in place and the world can still be traversed.","all failing calls",hist,[core+": World.replace_joint"])
p("Registration is idempotent and closed","register stores each subframe, shape, constraint and controller at most once whatever the number of calls, in first-registration order; registering a shape also registers its frame, registering a contact its two moving frames; bodies are ignored, joints and foreign objects are refused with ValueError without any effect.","all histories of register calls",hist,[core+": World.register"])
p("Dof slices partition the velocity vector","After World.init(), joint dofs are consecutive slices in depth-first order: each joint j gets a slice of length j.ndof, slices are pairwise disjoint, and together they cover 0..ndof-1 where ndof is the sum of the joints' ndof.","all trees and joint types (incl. 0-dof joints)",inf,[core+": World.init, Joint.dof"])
p("init preserves velocities and makes joint and world velocities one","World.init() keeps every joint's generalized velocity; afterwards the joint velocity is a live view on its slice of the world vector: writing a joint's gvel changes exactly that slice of world.gvel, no two joints share storage, init() called twice changes nothing, and the array returned by world.gvel is a private copy.","all worlds, all histories of init and writes",hist,[core+": World.init, World.gvel"])
p("JointsList.dof enumerates the members' dofs","For any list of initialised joints, JointsList(l).dof denotes, as an index, exactly the concatenation in list order of the members' dof ranges (a slice when they are contiguous from 0, otherwise an explicit list); for the whole world it is slice(0, ndof); it raises ValueError when some joint was added after the last init.","all sublists, permutations, repetitions",inf,[core+": JointsList._init_dof, Joint.dof"])
p("parse reports every element exactly once, parents first","World.parse(target) calls init_parse first, then add_link exactly once per joint (depth-first) and register exactly once per body of the tree, per registered subframe of those bodies, per shape attached to one of those frames, per constraint and per controller; a frame is registered before the links that start from it, and a shape after its frame.","all worlds",inf,[core+": World.parse"])
# ---- simulate
p("simulate follows the timeline","For a strictly increasing timeline t0<...<tn simulate performs exactly n steps; in step k the world time is t_k, dt is t_{k+1}-t_k, the order is update_dynamic, update_controllers, update_constraints, every observer's update(dt) in order, integrate; observers are initialised once before and finished once after; the final time is t_n.","all timelines, worlds and observer lists",hist,[core+": simulate, World.integrate"])
p("simulate refuses a non-increasing timeline","If the first non-increase is between t_k and t_{k+1}, exactly the k first steps are executed and the call then raises AssertionError before any observer sees step k; an empty timeline raises IndexError before touching the world.","all timelines",inf,[core+": simulate, World.update_controllers"])
p("Recorders and loggers capture every step","After simulate over n+1 times, each recorder holds exactly n entries, entry k being the observed value at time t_k before integration of step k; SaveLogger's timeline is t_0..t_{n-1}; no write is out of bounds and no entry is left empty; re-running resets the record.","all timelines and observed quantities",hist,[ob+": _Recorder, SaveLogger, RecordJointGpos"])
p("Collision solver selection does not depend on argument order","choose_solver(a,b) and choose_solver(b,a) select the same solver for the same pair of shapes (up to the order of two spheres), or both raise NotImplementedError; the returned shapes have the types the solver requires.","all pairs of shapes",inf,[co+": choose_solver"])
p("get_all_contacts enumerates the admissible pairs","get_all_contacts(world) returns one contact for every unordered pair of registered shapes attached to different bodies for which a solver exists, none for shapes of the same body, none twice.","all worlds and shape lists",inf,[cs+": get_all_contacts"])
# ---- SE(3)
p("Elementary transforms are rigid motions and compose as documented","transl, rotx, roty, rotz, rotzyx, rotzy, rotzx, rotyx return matrices with orthogonal rotation part of determinant 1 and last row (0,0,0,1); rotzyx(a,b,c)=rotz(a)roty(b)rotx(c) and likewise for the others; all are accepted by ishomogeneousmatrix.","all angles and translations",inf,[hg+": transl, rotx, roty, rotz, rotzyx, rotzy, rotzx, rotyx"])
p("inv is the two-sided inverse","For every rigid motion H, inv(H)H = H inv(H) = I, inv is an involution and reverses products. inv refuses (AssertionError) a matrix that is not homogeneous, so any matrix it accepts is inverted.","all 4x4 matrices",inf,[hg+": inv, ishomogeneousmatrix"])
p("pdot/vdot are group actions and isometries","pdot(H1 H2,p)=pdot(H1,pdot(H2,p)), vdot likewise, pdot(inv H) undoes pdot(H), distances between points and lengths of vectors are preserved by rigid motions.","all rigid motions, points and vectors",inf,[hg+": pdot, vdot"])
p("The adjoint is a group representation","adjoint(H1 H2)=adjoint(H1)adjoint(H2), iadjoint(H) is the inverse of adjoint(H), adjointmatrix.inv inverts every adjoint, and adjoint(H) maps body twists as the rigid motion does: hat(adjoint(H)T) = H hat(T) inv(H).","all rigid motions and twists",inf,[hg+": adjoint, iadjoint","arboris/adjointmatrix.py: inv"])
p("adjacency is the Lie bracket and gives the derivative of the adjoint","adjacency(T)T'=[T,T'] (antisymmetric, Jacobi), and along any motion with H' = H hat(T), d/dt adjoint(H) = adjoint(H)adjacency(T) (dAdjoint).","all twists, all differentiable motions",inf,[tw+": adjacency",hg+": dAdjoint"])
p("exp is the screw displacement of the twist","For |w| >= 0.001, exp(tw) is a rigid motion, fixes the rotation axis, rotates by the angle |w|, and s -> exp(s tw) has velocity tw (d/ds exp(s tw) = exp(s tw) hat(tw)); below the threshold, the result differs from the true exponential rotation by at most a fourth-order term so that it passes ishomogeneousmatrix.","all twists",inf,[tw+": exp"])
p("Roll-pitch-yaw angles round-trip","rotzyx(*rotzyx_angles(H)) reproduces the rotation of H for every rotation matrix, and rotzyx_angles(rotzyx(z,y,x)) = (z,y,x) for |y|<pi/2 and |z|,|x|<pi.","all rotation matrices / all angle triples",inf,[hg+": rotzyx_angles","arboris/robots/urdf/__init__.py: rotation_matrix_to_roll_pitch_yaw"])
p("zaligned builds a frame around the given normal","For every unit vector v, zaligned(v) is a rigid rotation whose z axis is v, whatever the order of magnitude of the coordinates; vectors that are not of norm 1 (within 1e-9) are refused; the result is always accepted by ishomogeneousmatrix.","all vectors",inf,[hg+": zaligned"])
# ---- joints
p("Joint jacobians are the velocity of joint poses","For every joint type, along any differentiable motion q(t) with q' = gvel, the pose satisfies d/dt pose = pose hat(jacobian gvel), i.e. joint.twist is the relative twist of frame 1 w.r.t. frame 0 in frame 1.","all joint types, all configurations, all motions",inf,[jn,core+": Joint.twist"])
p("djacobian is the time derivative of jacobian","For every joint type, along any differentiable motion with q' = gvel, each entry of djacobian is the time derivative of the same entry of jacobian.","all joint types and motions",inf,[jn])
p("The inverse-motion quantities of a joint are right","joint.ipose inverts joint.pose, itwist is the twist of the inverse motion, dadjoint and idadjoint are the time derivatives of adjoint and iadjoint, for every joint type.","all joint types and motions",inf,["arboris/rigidmotion.py: RigidMotion",jn])
p("The multi-dof joint equals the serial hinges","RzRyRxJoint has the same pose and jacobian as Rz, Ry, Rx joints in series through massless bodies (resp. RzRy, RzRx, RyRx).","all angles","test_joints checks one triple of angles.",[jn+": RzRyRxJoint","tests/test_joints.py"])
p("A free joint stays a rigid motion under integration","Starting from a rigid motion, after any number of FreeJoint.integrate steps with any velocities and time steps the generalized position is still accepted as a homogeneous matrix (so the simulation never aborts on it).","all step counts, velocities, time steps",hist,[jn+": FreeJoint.integrate",tw+": exp"])
# ---- mass
p("Mass constructors give valid mass matrices","box, ellipsoid, cylinder, sphere return symmetric positive definite matrices with m*I translational block for positive dimensions and mass, sphere(r,m)=ellipsoid((r,r,r),m), and the box values equal the volume integrals of a homogeneous box.","all dimensions and masses",inf,[mm+": box, ellipsoid, cylinder, sphere"])
p("transport preserves kinetic energy and validity","transport(M,H) is symmetric, positive definite with the same mass m*I block; the kinetic energy of a twist is the same in both frames; transport composes (transport(transport(M,H1),H2)=transport(M,H1H2)) and is undone by inv(H).","all mass matrices, rigid motions, twists",inf,[mm+": transport"])
p("principalframe locates the centre of mass and principal axes","For the mass matrix of a rigid body with centre of mass r, principalframe(M) has origin r, and transport(M, principalframe(M)) has zero coupling block and diagonal inertia when the eigenvectors returned are orthonormal.","all valid mass matrices",inf,[mm+": principalframe"])
# ---- dynamics
p("Body poses are the products of transforms along the path","After update_geometric (or update_dynamic) the pose of each body is H_parent * bpose(frame0) * joint.pose * inv(bpose(frame1)), hence the ordered product along the path from the ground; both methods give the same poses; all poses are rigid motions and no assertion fails when joint poses and frame poses are rigid.","all trees and configurations",inf,[core+": Body.update_geometric, Body.update_dynamic"])
p("Body twist equals jacobian times gvel","After update_dynamic, for each body (and each subframe) twist = jacobian * gvel, and the jacobian columns of joints that are not ancestors of the body are zero.","all trees, configurations and velocities",inf,[core+": Body.update_dynamic, _SubFrame.twist, _SubFrame.jacobian"])
p("Body jacobians are the velocities of body poses","Along every differentiable motion of the joints with q' = gvel, d/dt pose_b = pose_b hat(twist_b) for each body b of the tree.","all trees, all differentiable motions",inf,[core+": Body.update_dynamic"])
p("Body djacobian is the time derivative of jacobian","Along every differentiable motion of the joints with q' = gvel, each entry of body.djacobian is the time derivative of the same entry of body.jacobian.","all trees, joint types, motions",inf,[core+": Body.update_dynamic","arboris/rigidmotion.py: idadjoint"])
p("The world mass matrix is symmetric positive semi-definite","After update_dynamic world.mass is symmetric, x'Mx>=0, and the kinetic energy gvel'M gvel/2 is the sum over bodies of twist'M_b twist/2.","all trees with valid body masses, all configurations",inf,[core+": World.update_dynamic",ob+": EnergyMonitor.update"])
p("Non-linear effects do no work on a body and satisfy Newton-Euler","For a body with a valid rigid-body mass matrix, twist'(nleffects twist)=0 and nleffects*twist is the Newton-Euler gyroscopic wrench.","all trees, configurations, velocities",inf,[core+": Body.update_dynamic, World.update_dynamic"])
p("integrate solves the documented implicit equation","After update_controllers and integrate, the new velocity v' satisfies M (v'-v)/dt + (N+B) v' = sum of controller forces (constant part + Z_a v') + constraint forces, exactly; singular impedance raises LinAlgError and leaves velocities untouched.","all worlds, dt>0",inf,[core+": World.update_controllers, World.integrate"])
p("The PD controller applies the documented implicit PD law","The force effectively applied over a step by a ProportionalDerivativeController is Kp(q_d - q(t+dt)) + Kd(dq_d - dq(t+dt)) on its joints' dofs and zero elsewhere, for every list of linear joints.","all joint lists, gains, targets, dt",inf,[ct+": ProportionalDerivativeController"])
p("Gravity is conservative","The power gforce.gvel of WeightController(-9.81) is minus the time derivative of the potential energy reported by EnergyMonitor, along every motion.","all trees, masses, motions",inf,[ct+": WeightController",ob+": EnergyMonitor"])
p("The constraint solver's velocities are the ones integrated","At the end of update_constraints, the constraint velocity vector used by the solver equals the constraint jacobians applied to the velocity that integrate will compute, for any number of iterations and any mix of constraints; only enabled and active constraints contribute forces.","all worlds, constraint sets, iteration counts",hist,[core+": World.update_constraints"])
p("solve returns exactly the force increment it applied","For each constraint type, solve(vel, admittance, dt) returns dforce = new force - previous force.","all states and arguments",inf,[cs+": JointLimits.solve, BallAndSocketConstraint.solve, SoftFingerContact.solve"])
p("Joint limits are enforced with Signorini conditions","After JointLimits.solve, the predicted position is within [min,max], the force is >=0 at the lower limit, <=0 at the upper one and zero strictly inside.","all positions, limits, velocities, admittances, joint dimensions",inf,[cs+": JointLimits.solve"])
p("The ball-and-socket constraint closes the gap","After BallAndSocketConstraint.solve, p01 + dt (vel + Y dforce) = 0 for every invertible Y; and the constraint velocity is the time derivative of the relative position p01, as documented.","all gaps, velocities, admittances",inf,[cs+": BallAndSocketConstraint"])
p("Soft-finger contact respects unilaterality, persistence and dissipation","After SoftFingerContact.solve: no contact predicted => zero force; otherwise the normal gap at the end of the step is exactly zero; a sliding contact has tangential velocity opposed to the friction force; the friction force stays within the elliptic Coulomb cone; the normal force is never attractive.","all contact states, admittances, friction coefficients",inf,[cs+": SoftFingerContact.solve"])
p("Only approaching or near contacts are active","PointContact.update marks the contact active iff the predicted gap sdist + dt*dsdist is below proximity, where dsdist is the normal component of the constraint velocity jacobian*gvel; the two contact frames are attached to the right bodies and expressed from the current poses.","all poses, twists, shapes",inf,[cs+": PointContact.update"])
p("Sphere-sphere collision geometry","For distinct centres, sdist = |p1-p0|-r0-r1; the two contact frames are rigid, share their orientation with z along p1-p0, contact points lie on the respective spheres, the second is sdist along z from the first, and swapping the spheres gives the same distance; sdist is the minimal distance between points of disjoint spheres.","all centres and radii",inf,[co+": _sphere_sphere_collision"])
p("Plane-sphere collision geometry","For a plane a x+b y+c z+d=0 in its frame, sdist is the signed distance of the sphere to the plane, the contact frames are given relative to the ground with z along the plane normal, the first origin is on the plane, the second is the sphere point nearest to the plane, sdist along z from the first.","all plane poses, coefficients, centres, radii",inf,[co+": _plane_sphere_collision","arboris/shapes.py: Plane"])
p("Box-sphere collision geometry","Outside the box, sdist+radius is the minimal distance from the centre to the points of the box; inside it is minus the distance to the nearest face; the contact frame normal and points are expressed in the ground frame.","all box poses, sizes, centres, radii",inf,[co+": _box_sphere_collision"])
# ---- others
p("hsv_to_rgb yields a valid colour with the right value and chroma","For h any real, s,v in [0,1], hsv_to_rgb returns three numbers in [0,1] with max v and min v(1-s), periodic in h.","all hsv triples",inf,["arboris/visu/world_drawer.py: hsv_to_rgb"])
p("Object colours are stable","ColorGenerator.get_color(obj) returns the same colour on every later call whatever happens in between (no set_color), all frames and shapes of a body without own colour share the body's colour, and the first nb_colors bodies get distinct palette entries.","all histories of get_color",hist,["arboris/visu/world_drawer.py: ColorGenerator"])
p("The drawn scene graph matches the world","For every world drawn through World.parse, Drawer never looks up a missing node, and the product of the transforms from the root to a drawn node is the pose of the corresponding frame (flat or not).","all worlds, flat and hierarchical mode",inf,["arboris/visu/world_drawer.py: Drawer"])
p("The snake robot is a chain of the requested size","add_snake(w,n,...) adds exactly n hinge links in one chain (plus a free base when not fixed), with n (resp. n+6) dofs, and at zero angles the end frame of the fixed snake is at (0, sum of lengths, 0).","all n, lengths, masses",inf,["arboris/robots/snake.py: add_snake"])
p("EnergyMonitor accepts every world simulate accepts","EnergyMonitor.init never raises for a world whose bodies were accepted by Body(), in particular for the default (massless) bodies.","all worlds",inf,[ob+": EnergyMonitor.init",mm+": principalframe, ismassmatrix"])
p("A URDF robot is loaded as described, under any prefix","URDFConverter.load_in_world creates one body per link with the mass matrix of the file and connects each joint's parent and child links whatever prefix/suffix is requested; in every configuration each link is at the joint origin of the file moved along or about the axis of the file; limits and collision shapes are registered.","all robots, prefixes and suffixes",inf,["arboris/robots/urdf/__init__.py: URDFConverter.load_in_world"])
p("The mechanical energy obeys the energy balance","Along every motion obeying the equation of motion M a + (N+B) v = gforce of the matrices the world computes, under WeightController(-9.81), the mechanical energy recorded by EnergyMonitor decreases at the rate v'Bv of the viscous dissipation; without viscosity it is constant.","all trees, masses, motions",inf,[core+": World.update_dynamic",ct+": WeightController",ob+": EnergyMonitor"])
p("CoMObserver reports the centre of mass and its jacobian","After each update, get_CoMPosition() is the mass-weighted mean of the centres of mass of the bodies, get_CoMJacobian() times gvel is its velocity along every motion.","all trees, body lists, masses and motions",inf,[ob+": CoMObserver"])
p("Observers do not influence the simulated motion","simulate(world, timeline, observers) ends with the same generalized positions and velocities as simulate(world, timeline, []) for the library's recorders, loggers and monitors.","all worlds, timelines, lists of observers",hist,["arboris/core.py: simulate",ob+": all observers"])
p("A URDF file relying on the format's defaults loads","URDFConverter.load_in_world accepts a robot whose file leaves out what the URDF format makes optional: the axis of a joint, the axis of a fixed joint, a continuous or planar joint, the position or the angles of an origin.","all parsed robots",inf,["arboris/robots/urdf/__init__.py: to_arboris, URDFConverter.load_in_world","arboris/robots/urdf/urdf_parser.py: Joint, Pose"])
p("The parsed URDF tree, its root and its chains are those of the file","For every file describing a tree, whatever the order of its elements, the parser keeps every link and joint; get_root() is the unique link that is no joint's child (AssertionError when there is none or several); get_chain(root, tip) lists the links and joints met from root down to tip in order, and raises KeyError when tip is not below root.","all files, all orders of elements, all pairs of links",inf,["arboris/robots/urdf/urdf_parser.py: URDF.add_link, URDF.add_joint, URDF.get_root, URDF.get_chain"])
p("The humanoid has the requested size, mass and symmetry","add_human36(world, height, mass, anat_lengths, name) adds 17 bodies linked by the documented skeleton with 42 dofs, whatever the world held before; the bodies weigh mass in total; with all angles zero the soles are on the ground, the vertex is at the height, and with equal side lengths the left side mirrors the right one, with the same inertias up to the hands; its 45 frames, 17 joints and 8 shapes have distinct names, never shared with a humanoid of another prefix; unequal legs and negative masses are refused without touching the world.","all worlds, heights, masses, lengths, prefixes",inf,["arboris/robots/human36.py: add_human36, anat_lengths_from_height, height_from_anat_lengths"])
p("isadjointmatrix recognises exactly the adjoint matrices","adjointmatrix.isadjointmatrix(Ad) is true exactly for the adjoints of homogeneous matrices, and adjointmatrix.inv inverts every matrix it accepts.","all 6x6 matrices",inf,["arboris/adjointmatrix.py: isadjointmatrix, inv"])
p("ismassmatrix decides definiteness","ismassmatrix(M) is true exactly when M is symmetric positive definite (semi-definite with semi=True) with a scalar translational block, up to the tolerance of allclose.","all 6x6 matrices",inf,[mm+": ismassmatrix"])
p("The planar arm has the requested rods and reaches where its angles say","add_simplearm(world, name, lengths, masses) adds three bodies in a chain of hinges from the ground (3 dofs) whatever the world held before; every rod is a homogeneous box with the requested length and mass, its base at the joint, and its shape (if asked for) is the same box at the same place; in every configuration the end effector is at the sum of the rods turned by the partial sums of the angles, so within reach of the total length; refused arguments leave the world unchanged when no shapes are asked for.","all worlds, lengths, masses, configurations",inf,["arboris/robots/simplearm.py: add_simplearm"])
p("A solid added to the world is one free body with a matching shape","add_sphere, add_box and add_cylinder add exactly one body, linked to the ground by a free joint (6 dofs), whose mass matrix is that of the homogeneous solid with the dimensions of the registered shape; a negative mass is refused without touching the world; add_groundplane only registers a plane through the origin of the ground, normal to world.up.","all worlds, dimensions, masses",inf,["arboris/robots/simpleshapes.py: add_sphere, add_box, add_cylinder, add_groundplane"])
p("A contact sees the shapes where they are","For every pair of shapes for which choose_solver gives a solver, whatever the order of the arguments and the poses of their frames in the current state: the collision solver returns a positive distance iff the two solids have no common point, it is then the distance between them; for a plane it is the least height of the points of the sphere above the plane. A contact between the shapes is then activated exactly when this distance, corrected by its rate over the step, is below the proximity: at rest, always when the solids share a point, never when they are further than the proximity.","all shapes, frames, configurations, velocities, steps",inf,["arboris/collisions.py: choose_solver, _sphere_sphere_collision, _box_sphere_collision, _plane_sphere_collision","arboris/constraints.py: SoftFingerContact.update, PointContact"])
p("The iCub is built as described","For every world and every order in which its four tables are walked, robots.icub.add succeeds and adds exactly 32 bodies and 32 hinges (33 and a free joint when it is not fixed), linked as the torso, the neck, two arms and two legs; each body has the mass and the inertia of its homogeneous parts (27.197066 in all, 26.994096 when fixed); the requested shapes and contacts are registered, each on its body; the poses are those of the chain of Denavit-Hartenberg transforms for every configuration; with the same angles the right limbs are the mirror images of the left ones; at zero the robot stands with level soles 0.5975 below the waist; the limits have one proper range for each joint and are the same on both sides; its named frames and its joints have different names.","all worlds, orders of the dicts, options, configurations",inf,["arboris/robots/icub.py: add, get_bodies_data, get_joints_data, get_bodies_shapes_data, get_contact_data, get_joint_limits, get_torque_limits, T_DH"])
p("The iCub starts within its limits and its shapes have different names","The configuration in which robots.icub.add builds the robot is within the joint limits it publishes, and the shapes it registers have different names.","all worlds, orders of the dicts, options",inf,["arboris/robots/icub.py: add, get_joint_limits, get_bodies_shapes_data"])
p("The two hands of the humanoid have the same inertia","With equal lengths on both sides, the mass matrix of the right hand of a humanoid is the mirror image of that of the left hand, as for every other pair of segments.","all heights, masses, lengths",inf,["arboris/robots/human36.py: add_human36, _humansegments"])
p("A refused planar arm leaves no trace","If add_simplearm refuses its arguments, the world is as it was before the call.","all worlds and arguments",hist,["arboris/robots/simplearm.py: add_simplearm"])
p("Every accepted mass matrix belongs to a rigid body","Every matrix accepted by ismassmatrix is the mass matrix of some rigid body (mass, centre of mass, inertia).","all matrices",inf,[mm+": ismassmatrix"])
p("CoMObserver's jacobian derivative is the derivative","Along every motion with q' = gvel, get_CoMdJacobian() is the time derivative of get_CoMJacobian().","all worlds and motions",inf,[ob+": CoMObserver"])
p("The non-linear effects of a world do no work","For a whole world and every motion with q' = gvel, (1/2)gvel' (dM/dt) gvel = gvel' N gvel, so the power of the generalized forces is the rate of kinetic energy.","all worlds, configurations, velocities",inf,[core+": World.update_dynamic, Body.update_dynamic"])
p("A collada file shows every shape where it is","For every world and both drivers, the file written holds one instance for each shape of the world, below the node of its frame: at the current poses it covers exactly the ball of a sphere, the box, the cylinder, and for a plane a square of it centred at the foot of its origin, with the colour given to the shape by the colour generator; a point is a small ball. The vertical axis written is the one of the world.","all worlds, shapes, sizes, configurations, both drivers, flat or not",inf,["arboris/visu/dae_writer.py: pydaenimColladaDriver.create_sphere, create_box, create_cylinder, create_plane, create_point, add_ground","arboris/visu/visu_collada.py: DaenimColladaDriver"])
p("A collada file describes the masses of the bodies","For every world whose mass matrices are those of rigid bodies, the file holds one rigid body for each body that has a mass, with its mass, its centre of mass, its principal moments of inertia and the orientation of its principal axes (exactly away from the gimbal band, within 2 tol in it); the Daenim driver also draws for each of them the ellipsoid whose half axes are proportional to its principal moments, at its principal frame.","all worlds and mass matrices, both drivers",inf,["arboris/visu/dae_writer.py: create_inertia","arboris/visu/visu_collada.py: create_inertia"])
p("A collada file shows the links and the frames","For every world, the file of the Daenim driver holds one segment for each subframe off its body, from the body to the subframe at the current poses, and for each frame but the ground its three axes, of the same length.","all worlds and configurations, flat or not",inf,["arboris/visu/visu_collada.py: create_line, create_frame_arrows","arboris/visu/dae_writer.py: create_line, create_frame_arrows"])
p("The ids of a collada file are unique","For every world, if no name is shared then each frame of the world gets a node whose id is its name, the ids are unique, and they are exactly the names; if names are shared the ids are made unique with suffixes.","all worlds and names, both drivers",inf,["arboris/visu/dae_writer.py: _get_collada_id, create_transform","arboris/visu/visu_collada.py: DaenimColladaDriver"])
p("A collada animation replays the simulation","For every world, drawn by write_collada_scene (either driver, flat or not) and then simulated with a SaveLogger of the same mode, write_collada_animation makes a file whose instants are those of the steps and in which, at the k-th instant, the node of every frame of the world, moving subframes included, is shown where the frame was at the k-th step, provided no two objects share a name and no frame is called as the ground.","all worlds, names, simulations, timelines, controllers and constraints, both drivers",inf,["arboris/visu/dae_writer.py: write_collada_scene, write_collada_animation, write_collada_animation_from_transforms","arboris/visu/visu_collada.py: write_collada_scene, view","arboris/observers.py: SaveLogger"])
p("What an Hdf5Logger saves can be read back","At the end of every simulation with an Hdf5Logger, the data it recorded is written in the file with the documented layout and shapes: the animation writer reads back exactly the times and the transforms of the steps; gpositions, gvelocities and model are stored with one row per step; the logger can be used again.","all worlds, simulations, options, names, files given to the logger and orders of the dictionaries",inf,["arboris/observers.py: SaveLogger, Hdf5Logger.finish","arboris/visu/dae_writer.py: write_collada_animation"])
p("The viewer shows the simulation as it runs","At each step, the message a DaenimCom observer sends to the viewer has one line per moved object, and the viewer that applies it to the scene written before shows each frame of the world where it is at this step (up to the rounding of the printed numbers); this does not depend on the names of the objects, and a viewer that never connects does not prevent the simulation and the other observers to end.","all worlds, scenes, modes, simulations, steps and names",inf,["arboris/visu/visu_collada.py: DaenimCom, packing_transform","arboris/observers.py: SocketCom"])
p("Kinematic arrays read from a world are snapshots","Reading pose, twist, jacobian, djacobian, bpose or nleffects of a frame or a body, world.gvel, world.gforce or world.admittance, or the position of a free joint, gives an array holding the value of the property; whatever is called afterwards (updates, integration, controllers, contacts, moving frames, init, failing calls), this array keeps its content, so that someone who keeps the arrays of successive steps without copying them has the true history.","all worlds whose arrays are not shared by the user, readings and histories of calls",inf,["arboris/core.py: Body, SubFrame, MovingSubFrame, World.update_geometric, World.update_dynamic, World.update_controllers, World.update_constraints, World.integrate, World.init","arboris/joints.py: FreeJoint.integrate"])
p("Matrices of the world read and kept","world.mass, world.viscosity, world.nleffects and the gpos of a joint are the arrays of the world themselves: kept by a user, they always show the current values (until the next init for the matrices), and someone who keeps them at each step has at the end as many times the last value. The expectation that a kept world.mass is the mass matrix of the time it was read is false.","all worlds, readings and histories of calls",inf,["arboris/core.py: World.mass, World.viscosity, World.nleffects, World.update_dynamic, LinearConfigurationSpaceJoint.integrate"])
p("Moving a frame moves that frame only","Setting the bpose of a moving subframe gives it this pose and changes the pose of no other frame, as long as each frame was made from an array of its own; frames made from the same array move together, even rigid subframes.","all worlds, frames and poses",inf,["arboris/core.py: _SubFrame.__init__, MovingSubFrame.bpose"])
p("A generated matlab robot is the robot","MatlabRobotGenerator.make_robot, given a robot whose first joint is free and whose other joints are hinges (at least one), writes exactly one body description per joint, in an order and with (branch, rank) indices without hole, where each body is mounted on the body that carries it, with the axis of its joint, the poses of the two frames, the inertia in the matlab order, each shape on its body with its dimensions, and the position and velocity of the robot. Other robots are refused: nothing is written if the first joint is not free, otherwise the text says at its end that it must not be used.","all robots (trees of bodies and joints of any size), scenes, states and names",inf,["matlab/convert_py2mat.py: MatlabRobotGenerator.make_robot, _traverse, _add_link, _add_shapes, _finish, _flip"])
p("A generated matlab simulation is the simulation","MatlabSimulationGenerator.generate_simulation accepts exactly the timelines of at least two equally spaced dates, worlds with one robot, no constraint and no controller but the weight; it writes the start, the step, the end (half a step before the last date), the acceleration of the gravity along world.up and the robot of the world. Everything else is refused before anything is written.","all timelines, worlds, controllers and names",inf,["matlab/convert_py2mat.py: MatlabSimulationGenerator.generate_simulation"])
p("Converting a robot to matlab joints keeps its kinematics","MatlabConverter.convert_robot, given a robot whose first joint is free, succeeds; the robot becomes the same tree where each joint made of two or three hinges is replaced, between the same frames, by these hinges in series through new bodies, named after it, and the rest of the world is as before. With the new hinges at the positions and speeds of the joints that they replace every body of the world has the pose, the Jacobian and the twist that it had. If the joints were hinges or made of hinges, and the shapes on the robot, the result is accepted by MatlabRobotGenerator. Given a robot whose first joint is not free, it puts a body of 10000 kg in a free joint between the ground and this joint, and registers a box, four spheres and four contacts.","all worlds built with the API, robots of any size, states of the joints",inf,["matlab/convert_py2mat.py: MatlabConverter.convert_robot, convert_root_joint, convert_nonroot_joint, _traverse"])
p("What is read from an URDF document","URDF.parse_xml_string reads a document exactly when its first node is an element and every link, joint and material in it is well formed (numbers that can be read, a shape in each geometry), elements that do not count included. The robot has the name of the document and its links, joints and materials in order, with the numbers and texts of their attributes, None for what is absent; in each element the last child of each name counts; the dictionaries have the last element of each name. Texts, comments and unknown elements never change what is read.","all documents, of any size and depth, any texts of numbers",inf,["arboris/robots/urdf/urdf_parser.py: URDF.parse_xml_string, children, the parse methods"])
p("Writing an URDF robot and reading it again","For a robot made of links, joints and materials with ASCII texts URDF.to_xml succeeds, and what is read from the document, whatever texts are put between the elements, is a robot with the same name and the same elements in the same order, the numbers being as printed; if the numbers are printed exactly and joints have a parent, a child and no mimic, it is the same robot, dictionaries included.","all robots made with the API or read from a document",inf,["arboris/robots/urdf/urdf_parser.py: URDF.to_xml, set_attribute, pfloat, the to_xml methods, URDF.add_link, add_joint, add_material"])
p("The visual and collision shapes of an URDF robot","URDFConverter.get_visual_shapes and get_collision_shapes return exactly one item per link that has a visual (a collision) element: in the frame of the link (its name with prefix and suffix), placed at the origin the element gives (identity without it), with the mesh and the scale of its geometry; for a mesh, the file beside the URDF file. Added to the scene, the item of a sphere or a cylinder covers exactly the solid that the file describes.","all documents and robots, all poses of the links",inf,["arboris/robots/urdf/__init__.py: URDFConverter.__init__, parseURDF, get_visual_shapes, get_collision_shapes, to_arboris","arboris/visu/dae_writer.py: add_shapes_to_dae"])
p("The limits of the joints of an URDF robot","URDFConverter.get_joint_limits, get_effort_limits and get_velocity_limits associate to every joint of the file, under its name with prefix and suffix, the limits that the file gives it (position limits only where both are given), and to nothing else.","all documents, all prefixes and suffixes",inf,["arboris/robots/urdf/__init__.py: URDFConverter.get_joint_limits, get_effort_limits, get_velocity_limits"])
p("Adding shapes to a collada scene","add_shapes_to_dae writes a document that displays exactly what the input displays and, for each item whose frame and shape exist, the contents of the shape (a node of a file, or its whole scene) at the pose of the frame followed by the transform and the scale of the item; with the name of a file, each of its nodes that has the id of a node of the scene is added at this node. Items whose frame or shape is unknown change nothing, and every reference of the written document is right.","all scenes, of any depth, all files of shapes, all lists of items",inf,["arboris/visu/dae_writer.py: add_shapes_to_dae, _get_all_nodes, _get_void_node, _save_all_descendant_geometryNode, _get_good_id_uri"])
p("A simulation can be interrupted and resumed","simulate(world, t0...t1) followed by simulate(world, t1...t2) on the same world ends like the single simulate(world, t0...t1...t2): same positions, velocities, time, poses, contact forces and data of the controllers, the same exception if a step of the second part raises, and the same World.mass, nleffects, gforce, admittance as soon as the second part makes a step. World.init forgets nothing of the motion.","all worlds built by the API, all setups, all timelines, all memoryless user controllers, all observers",inf,["arboris/core.py: simulate, World.init, World.update_dynamic, World.update_controllers, World.update_constraints, World.integrate","arboris/constraints.py: init of each class","arboris/controllers.py: init of each class"])
p("The summary of the performance monitor","A PerfMonitor given to simulate adds the duration of each step, by the clock, to its history: after any simulations get_summary tells their total (the sum of the times from the start to the last step of each), and a minimum, mean and maximum with minimum <= mean <= maximum, over all the steps since its creation; before the first step it raises ValueError. With log=True it logs the time at which each step starts.","all clocks (even going back), all simulations and sequences of simulations, all positions among the observers",inf,["arboris/observers.py: PerfMonitor","arboris/core.py: simulate"])
p("A robot moves the same way wherever it stands","simulate run on two worlds that differ only by where the robot stands -- the frames of the ground that carry it, or the position of its free root joint, displaced by the same rigid motion G (keeping the vertical if there is a WeightController) -- gives the same outcome (the same exception too), the same joint positions and velocities, time, mass matrix, forces and constraint forces, the positions of the displaced free joints and the poses of all the bodies being those of the first world displaced by G, their jacobians and twists the same. PD controllers, controllers that do not look at the place of the robot, joint limits, and ball and sockets between frames that are displaced too may be present.","all robots (all trees), rigid motions, states, timelines, numpy functions",inf,["arboris/core.py: simulate, World.update_dynamic, World.update_controllers, World.update_constraints, World.integrate, Body.update_dynamic","arboris/joints.py: FreeJoint","arboris/controllers.py: WeightController.update","arboris/constraints.py: BallAndSocketConstraint"])
p("A robot at rest without forces stays at rest","A robot whose joints have null velocities, without gravity, whose PD controllers are asked to hold its position with a null velocity, whose other controllers apply no force in this state, and whose constraints are disabled or joint limits that are not near, does not move when it is simulated, whatever the timeline: the positions of all its joints (free ones too) are not changed, and the velocities of the joints and of the world remain null.","all robots (all trees, joint types), positions, gains, timelines, numpy functions, also when a step raises",inf,["arboris/core.py: simulate, World.init, World.update_controllers, World.update_constraints, World.integrate","arboris/controllers.py: ProportionalDerivativeController.update","arboris/constraints.py: JointLimits.is_active","arboris/joints.py: FreeJoint.integrate","arboris/twistvector.py: exp"])
p("Robots that do not touch each other do not interact","In the mass, viscosity and nonlinear effects matrices of a world, the entries between the degrees of freedom of two joints that carry no common body (other branches of a robot, or other robots) are null. And the motion of robots that share a world with others, under gravity, PD controllers (each on the joints of these robots, or of the others) and user controllers that do not link them, without constraints or free joints, does not depend on the others: whatever the classes, masses, frames, gains, positions and velocities of the other robots, the selected robots have the same positions and velocities at the end of a simulation along the same timeline.","all trees, joint types, masses, frames, positions, velocities, gains and timelines, all selections of whole robots",inf,["arboris/core.py: World.update_dynamic, Body.update_dynamic, World.update_controllers, World.integrate, simulate","arboris/controllers.py: WeightController, ProportionalDerivativeController"])
p("The order in which controllers are registered does not matter","If a simulation of a world ends normally, then the same simulation of the same world built with the controllers registered in another order ends normally too, and in the same state: positions, velocities, generalized forces, impedance, constraint forces and time. This holds for every mix of weight, proportional-derivative and user controllers (that do not look at the list of the controllers), for every constraint and every joint.","all worlds, joint types, constraints, controllers, timelines and permutations of the registration order",inf,["arboris/core.py: World.register, World.init, World.update_controllers, simulate","arboris/controllers.py: WeightController, ProportionalDerivativeController"])
p("The instant at which a simulation starts does not matter","If all the instants of a timeline are shifted by the same duration, the simulation of the same world has the same outcome (a normal end, or the same error) and ends in the same state: same positions, velocities, forces, matrices and constraint forces; only the clock of the world is shifted. This holds for every mix of weight, proportional-derivative and user controllers (that do not look at the clock), for every constraint and every joint.","all worlds, joint types, constraints, controllers, timelines and shifts",inf,["arboris/core.py: World.init, World.update_dynamic, World.update_controllers, World.update_constraints, World.integrate, simulate"])
p("The unit of mass does not matter","If a world is described in another unit of mass (the masses and viscosities of the bodies, the gains of the proportional-derivative controllers and the forces and impedances of the user controllers are multiplied by the same positive number), its simulation has the same outcome (a normal end, or the same error) and the same motion: the same positions and velocities at the end, while the mass, viscosity, nonlinear effects and impedance matrices and the generalized forces are multiplied by that number, and the admittance divided by it.","all worlds whose constraints are joint limits and ball-and-socket constraints (none or many), joint types, masses, controllers, timelines and positive factors",inf,["arboris/core.py: Body.update_dynamic, World.update_dynamic, World.update_controllers, World.integrate, simulate","arboris/controllers.py: WeightController, ProportionalDerivativeController"])
p("Names, frames and shapes are only decoration","Registering frames and shapes in a world, or naming its objects otherwise, does not change its simulations: the outcome is the same (a normal end, or the same error) and so is the final state. In particular shapes act only through the constraints that use them. This holds for every joint, constraint and mix of controllers (user controllers that do not look at the registered frames and shapes).","all worlds, joint types, constraints, controllers, timelines, registered frames and shapes, and names",inf,["arboris/core.py: World.register, World.init, World.update_dynamic, World.update_controllers, World.update_constraints, World.integrate, simulate"])
p("A disabled constraint is an absent constraint","The simulation of a world and the simulation of the same world without its disabled joint limits and ball-and-socket constraints have the same outcome (a normal end, or the same error) and end in the same state, whatever the other constraints (contacts, disabled or not, included), the controllers and the joints. Registering a constraint and disabling it has no effect on the motion.","all worlds, joint types, constraints, controllers (user controllers that do not look at the disabled constraints) and timelines",inf,["arboris/core.py: Constraint.enable, Constraint.disable, World.update_constraints, World.init, simulate","arboris/constraints.py: JointLimits, BallAndSocketConstraint"])
p("Gravities add up","If the simulation of a world with two weight controllers, of gravities g1 and g2, ends normally, the simulation of the same world where the two are replaced by one weight controller of gravity g1+g2 ends normally too, in the same state: same positions, velocities, forces, matrices and time, whatever the other controllers, the constraints, the joints, the masses and the order of registration. A weight controller of gravity 0 can be removed without any effect.","all worlds, joint types, masses, constraints, other controllers (user controllers that do not look at the list of controllers), gravities and timelines",inf,["arboris/controllers.py: WeightController.init, WeightController.update","arboris/core.py: World.update_controllers, World.init, simulate"])
for x in P: print(json.dumps(x, ensure_ascii=False))
