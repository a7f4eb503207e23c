{
 "C02": {
  "note": "Distinct names: proved. The documented DuplicateNameError is REFUTED: duplicates always surface as TypeError (C02_as_dict_refuted)."
 },
 "C04": {
  "note": "REFUTED: on a one-shot generator duplicates are never detected (the naming pass consumes it)."
 },
 "C06": {
  "note": "Second parent: proved. Loop closing is REFUTED: add_link has no cycle check (C06_loops_refuted, C06_witness)."
 },
 "C08": {
  "note": "Exact effect of a refused call proved; the claim itself is REFUTED: the joint keeps the refused frames and can never be linked again."
 },
 "C12": {
  "note": "Refusals by the head checks leave no trace; REFUTED for refusals raised by the inner add_link (C12_atomic_refuted)."
 },
 "C15": {
  "note": "world.gvel returning a copy is by construction of the model (values); rebinding j.gvel to another array is not modelled."
 },
 "C20": {
  "note": "Proved for loggers whose targets have pairwise distinct names; in flat mode two targets with the same name share one array (C20_flat_duplicates_refuted). C20_loggers_harmless: loggers never stop a simulation except by DuplicateNameError at their init; C20_observed_poses: what observers read at a step is up to date."
 },
 "C21": {
  "note": "Order independence proved for every documented pair (C21_documented, C21_others); REFUTED for Point/Box: only one order finds a solver."
 },
 "C22": {
  "note": "Proved for all worlds and all documented pairs; a Point/Box pair is only found if the Box was registered first (C22_point_box_refuted)."
 },
 "C24": {
  "note": "Proved for all rigid motions, with an iff for accepted matrices. The clause 'any accepted matrix is inverted' is REFUTED (only the determinant is checked)."
 },
 "C29": {
  "note": "Exact outside the 1e-9 band and at the singularity; inside the band within 2e-9 per entry for every rotation (C29_band_error); exactness everywhere is REFUTED."
 },
 "C30": {
  "note": "Proved for unit vectors and refusals; 'always accepted by ishomogeneousmatrix' is REFUTED for accepted vectors of norm within 1e-9 of 1."
 },
 "C33": {
  "note": "ipose and dadjoint proved for every joint type, itwist and idadjoint for the joints with fixed axes; REFUTED for RzRyRx, RzRy, RzRx, RyRx and Free joints (RigidMotion.itwist applies the inverse adjoint)."
 },
 "C35": {
  "note": "Exactly rigid when no step turns by a nonzero angle below 0.001; accepted for every run of at most 12000 steps; for unbounded runs REFUTED: the determinant drifts below the tolerance."
 },
 "C42": {
  "note": "REFUTED for a body carried by a multi-axis joint whose parent moves (consequence of RigidMotion.itwist). C42_djacobian_error proves the exact error in every world: the derivative of a column of the jacobian is the column of djacobian plus the sum of joint_error over the joints between the body and the ground (zero for hinges, slides and joints with a parent at rest)."
 },
 "C44": {
  "note": ""
 },
 "C46": {
  "note": "Law proved for joint lists of equal ndof (C46_effective_force, C46_step); for lists mixing dofs it is REFUTED: update raises ValueError (C46_mixed_refuted)."
 },
 "C50": {
  "note": "Signs of the force proved; the predicted position within the limits proved for one-dof joints (C50_one_dof) and for decoupled admittances (C50_limits_partial); through a whole step (update_constraints then integrate) for the last acting constraint (C50_step), with an inactive limit having no effect at all (C50_idle). REFUTED for coupled axes and for a step that would leave both limits (C50_coupled_refuted, C50_two_sided_refuted). C50_own_dofs: a limit acts on the dofs of its joint only, REFUTED for a joint that is not in the world (C50_foreign_refuted: its limit is accepted and pushes every joint)."
 },
 "C51": {
  "note": "Gap closing proved for every invertible admittance, and through a whole step for the last acting constraint (C51_step). The velocity being the derivative of the relative position is proved up to the missing lever term of the rotating frame 0 (C51_velocity_partial) and REFUTED in general (C51_velocity_refuted)."
 },
 "C52": {
  "note": "No-contact, persistence and dissipation proved; Coulomb cone proved for decoupled isotropic admittances within the eigenvalue bound, REFUTED in general; non-attraction REFUTED; mu=0 always raises or sticks (C52_frictionless_refuted)."
 },
 "C55": {
  "note": "Signed distance and frames proved in the frame of the plane when not touching; REFUTED: frames not relative to the ground, sign convention of d, wrong second point at or below contact."
 },
 "C56": {
  "note": "Outside: everything proved. Inside: signed distance proved (C56_inside_partial); the normal of the contact frames is REFUTED (C56_normal_refuted)."
 },
 "C57": {
  "note": "all hsv triples; values in range, max/min, periodicity, the six-sector reference formula, injectivity of the palette hues"
 },
 "C58": {
  "note": "names of objects are assumed fixed during the history (get_color also looks colours up by name)"
 },
 "C59": {
  "note": "refuted in two cases: flat mode places a MovingSubFrame at its bpose, and a joint ending at a MovingSubFrame cannot be drawn; proved in all the others, and for animated scenes in both modes. The graphic attributes (sizes, options) of the items are not modelled, nor the Collada driver's XML."
 },
 "C61": {
  "note": "REFUTED: init raises AssertionError exactly when a body's (accepted) mass matrix is not positive definite."
 },
 "C63": {
  "note": "REFUTED in general (C63_energy_refuted: a hinge followed by a two-axis joint, masses above the threshold). C63_energy_balance proves the exact rate of the recorded energy in every world, without restriction on joints or masses; C63_energy_balance_partial is the English claim where djac_safe holds and the masses exceed 1e-10."
 },
 "C64": {
  "note": "Position and jacobian."
 },
 "C60": {
  "note": "add_snake for every n, lengths, masses, positions and velocities, fixed or free, in every reachable world: success, objects created, chain, dofs, velocities, registered frames (C60_snake); pose of every segment end in every configuration (C60_position); straight at the default position (C60_end); refused arguments (C60_rejects). Assumes numpy.linalg.eigvals lists the eigenvalues of symmetric matrices (shown satisfiable in C60_witness)."
 },
 "C62": {
  "note": "REFUTED for every non-empty prefix or suffix: KeyError (C62_prefix_refuted). Without prefix: objects, tree, dofs, registration (C62_load), positions in every configuration (C62_position), non-vacuous for every loadable robot (C62_witness, C62_robot). From the document to a loadable robot: C62_document, C62_document_witness. Not modelled: the XML text (documents are DOM trees, C94), names of the arboris objects, the init hooks of constraints. A link without inertial gets mass None."
 },
 "C66": {
  "note": "REFUTED: each of these omissions makes the call fail, whatever the rest of the file (C66_optional_refuted)."
 },
 "C67": {
  "note": "On the elements of the file in order; C67_document makes them those of the parsed document (C94). The order in which Python iterates over the dicts is left open by stating results as membership."
 },
 "C68": {
  "note": "Non-vacuous for every height and mass (C68_witness). The hands are in C76."
 },
 "C69": {
  "note": "Adjoints are accepted and the accepted matrices are characterised (C69_adjoints_accepted, C69_shape_partial); the converse is REFUTED: neither orthogonality nor the lower left block is checked (C69_refuted)."
 },
 "C70": {
  "note": "Definiteness is decided exactly (C70_definite, with a proof that the least eigenvalue bounds the quadratic form) and the tolerance is characterised (C70_tolerance)."
 },
 "C71": {
  "note": "C71_arm, C71_reach, C71_workspace hold for every world, nonzero lengths and positive masses; C71_refuses is for with_shapes=False, see C77 for the other case."
 },
 "C72": {
  "note": "C72_solids, C72_free, C72_refuses, C72_plane; that the mass matrix is that of the homogeneous solid is C36 (used in C72_witness). A zero mass is accepted."
 },
 "C73": {
  "note": "C73_gap (spheres, points, boxes), C73_plane, C73_contact. Coincident centres of two spheres are excluded (an assertion fails there: C54_coincident); for planes the convention n.u = d of the code is used (C55_convention_refuted) and the contact frames are those refuted in C55."
 },
 "C74": {
  "note": "C74_icub (construction, links, shapes), C74_masses, C74_weight, C74_poses, C74_mirror, C74_standing, C74_limits, C74_names, C74_witness."
 },
 "C75": {
  "note": "REFUTED: the elbows cannot be at zero (C75_zero_refuted); the shapes of a body of several parts share a name (C75_shape_names_refuted)."
 },
 "C76": {
  "note": "REFUTED for every humanoid of positive mass: the gyration radii 0.235 and 0.288 are exchanged between HandR and HandL."
 },
 "C77": {
  "note": "REFUTED with shapes: those of the first rods stay registered. True without shapes (C71_refuses)."
 },
 "C78": {
  "note": "REFUTED: the coupling block need not be skew."
 },
 "C79": {
  "note": "Right when the centres of mass are at the origins of the bodies (C79_djacobian_partial); REFUTED otherwise, with the exact error (C79_djacobian_error)."
 },
 "C80": {
  "note": "REFUTED in general (C80_world_refuted: constant mass matrix, v'Nv <> 0). C80_world and C80_power prove the exact balance in every world, without restriction on the joints or the masses: the missing power is that of the accelerations djacobian forgets (lost_acceleration), and of the gyroscopic forces under the 1e-10 mass threshold (gyro_power)."
 },
 "C81": {
  "note": "C81_shapes (which also shows that the options argument is ignored: sizes are the default ones for every update), C81_up, C81_witness. REFUTED: a world whose vertical axis is not exactly x, y or z cannot be written: TypeError instead of the intended warning (C81_up_refuted)."
 },
 "C82": {
  "note": "C82_physics, C82_ellipsoids. REFUTED: the Daenim driver gives all rigid bodies an empty sid (C82_daenim_sid_refuted)."
 },
 "C83": {
  "note": "C83_links, C83_arrows. REFUTED: create_line scales before it moves, so a line that does not start at the origin of its node is misplaced (C83_line_start_refuted); the drawer only draws lines from the origin."
 },
 "C84": {
  "note": "C84_ids, C84_unique (up to 101 ids). REFUTED: a shape called ground gets the id of the ground node (C84_ground_refuted); beyond 101 objects of the same name ids are no longer unique (C84_ids_refuted, C84_ids_witness)."
 },
 "C85": {
  "note": "C85_animation, C85_scene, C85_witness. REFUTED: view() passes the HDF5 group as the type of the file, so it never shows an animation (C85_view_refuted). The values are exact in the model (the code rounds them to 8 digits)."
 },
 "C86": {
  "note": "C86_roundtrip (transforms, new file), C86_witness. REFUTED: every dataset is required with the shape (n,4,4), so saving the state or the model ends the simulation with TypeError in nearly every case (C86_state_refuted, C86_model_refuted) and in the others stores arrays of the wrong shape (C86_shape_refuted); a logger cannot finish twice (C86_reuse_refuted)."
 },
 "C87": {
  "note": "C87_message, C87_viewer (printing of numbers as a parameter: words read back as rounded numbers; the viewer itself is a specification), C87_witness. REFUTED: the line of an object whose name has a space is not understood (C87_space_refuted); with a viewer that did not connect, simulate ends with AttributeError after all its steps (C87_unconnected_refuted) and the observers after it never finish (C87_unfinished_refuted)."
 },
 "C88": {
  "note": "C88_reading, C88_snapshot, C88_record (a recorder that does not copy), C88_values (the calls on arrays have the values of Model_Dyn and Model_Step, errors included), C88_owned, C88_witness."
 },
 "C89": {
  "note": "C89_live, C89_history: the kept arrays all show the last value. REFUTED: kept arrays of world.mass do not show the values they were read with (C89_history_refuted)."
 },
 "C90": {
  "note": "C90_apart, C90_new_frames, C90_shared. REFUTED for arrays shared by two frames: a rigid SubFrame made from the array of a MovingSubFrame moves with it (C90_subframe_refuted)."
 },
 "C91": {
  "note": "C91_robot, C91_accepts, C91_refuses, C91_witness. REFUTED: a free body alone is not accepted (C91_lone_refuted); a shape on the ground makes it fail (C91_outside_refuted); a plane is written as the shape before it (C91_plane_refuted); a shape of a body goes to another body of the same name, e.g. unnamed (C91_unnamed_refuted); a generator used twice writes the position of the first robot (C91_reuse_refuted)."
 },
 "C92": {
  "note": "C92_timeline, C92_simulation, C92_refuses, C92_backwards, C92_witness. REFUTED: a refused timeline may raise AttributeError (C92_timeline_refuted); two weight controllers may be accepted (C92_gravity_refuted). Exact reals: the comparison of floats of arange with the timeline is not modelled."
 },
 "C93": {
  "note": "C93_serial, C93_motion, C93_compatible, C93_root, C93_witness. REFUTED: the new bodies weigh 1000 kg each (the small_mass of the converter is not used), so that the dynamics is not kept (C93_mass_refuted); a robot whose first joint is not free becomes a world that the generators refuse, because of the contacts, of the box on the ground, or of its first joint, which is not converted (C93_root_refuted). The new hinges are at zero (a TODO of the code): C93_motion is about hinges that the user then sets."
 },
 "C94": {
  "note": "C94_contents, C94_readable (iff), C94_texts, C94_witness. REFUTED: a document that starts with a document type or a processing instruction is refused (C94_prolog_refuted); of several collision or visual elements in a link, which the format allows, only the last one is kept (C94_several_refuted). The XML text itself is left to xml.dom.minidom; float of a text is a parameter of the theorems."
 },
 "C95": {
  "note": "C95_again, C95_same, C95_read, C95_witness. REFUTED: the mimic of a joint is lost, and a joint without parent gets one with an empty name (C95_mimic_refuted); a robot read with a non-ASCII joint name, type, axis... cannot be written (C95_ascii_refuted)."
 },
 "C96": {
  "note": "C96_shapes, C96_drawn, C96_witness. REFUTED: boxes are drawn twice too large in each direction (the scale is the full side, the mesh has half side 1: C96_box_refuted); a visual without known geometry, a mesh with a scale or an origin with only a position makes the whole call fail (C96_optional_refuted); parseURDF does not record the file it reads: without a file at construction no shape is obtained, with another one the meshes are looked for in the wrong directory (C96_file_refuted). The items are modelled up to pycollada: the node add_shapes_to_dae makes of an item is a matrix and a scale."
 },
 "C97": {
  "note": "C97_limits, C97_witness. REFUTED: one joint without a limit element (optional for fixed, floating and continuous joints) and all three functions raise AttributeError (C97_fixed_refuted)."
 },
 "C98": {
  "note": "C98_items, C98_file, C98_witness, under conditions on ids: geometries of the same id are the same, shapes get different and new library ids, files of shapes have no instance of their own library. REFUTED without them: of two whole files only the first is displayed, twice (C98_whole_refuted); geometries of two files with the same id are merged (C98_geometry_refuted); 'left/arm.dae' and 'left_arm.dae' are confused (C98_name_refuted); instances of the library of a file of shapes, which add_shapes_to_dae itself writes, are left dangling (C98_instance_refuted); a dict with a scale and no transform raises AttributeError (C98_scale_refuted). Materials, effects and the XML text are not modelled."
 },
 "C99": {
  "note": "C99_resume, C99_observed (any observers), C99_witness. User controllers must not read the forces left by the previous step. In exact arithmetic; the time of the second timeline must be the final time of the first (otherwise C92)."
 },
 "C100": {
  "note": "C100_summary, C100_steps, C100_no_step, C100_positive, C100_witness (one monitor, two simulations). The readings of time.time() are arbitrary reals; the calls are those of C18_schedule."
 },
 "C101": {
  "note": "C101_moved, C101_witness (a simulated body on a displaced frame with gravity), C101_witness_free. No observers (see C65), no SoftFingerContact: the tangent directions its collision solvers choose depend on the orientation of the world axes."
 },
 "C102": {
  "note": "C102_rest, C102_witness (a simulated slide), C102_witness_pd. No observers (see C65)."
 },
 "C103": {
  "note": "C103_branches (any joints, FreeJoint included), C103_robot (a robot that stands on the ground is a selection), C103_alone (simulation), C103_witness (two slides). The simulation is without FreeJoint, because exp is not exactly rigid on small rotations (C35), and without constraints, which may link robots."
 },
 "C104": {
  "note": "C104_order (simulation without observers), C104_witness (two slides, two WeightControllers registered in both orders). Over the exact reals: in floating point the sum of the forces depends on the order in the last bits."
 },
 "C105": {
  "note": "C105_start (simulation without observers; errors included), C105_witness (two slides started at 0 and at 100)."
 },
 "C106": {
  "note": "C106_units and C106_motion (errors included, no observers; joint limits and ball-and-socket constraints allowed, contacts excluded: their epsilons and the eigenvalue problem do not scale) hold if no body crosses the absolute limit of 1e-10 under which Body.update_dynamic treats a body as massless. C106_tiny_refuted: a body of 2e-10 has other nonlinear effects when its mass is divided by 1000. C106_witness: two slides; C106_limits_witness: the same with an enabled joint limit and an enabled ball and socket. pinv_scales: pinv(A/c) = c pinv(A). tidy only says that the inverse of an (n,n) array has no other entries."
 },
 "C107": {
  "note": "C107_decor (simulation without observers; loggers read the names), C107_register (any calls of World.register on frames and shapes give such a decorated world), C107_witness (two slides)."
 },
 "C108": {
  "note": "C108_disabled (simulation without observers, errors included) if the disabled limits are on joints of the world; C108_limit_refuted: World.init raises on a disabled limit of a joint of two dofs that is out of the world. C108_witness: two slides with a disabled limit and a disabled ball and socket. The disabled contacts are kept because their frames stay visible."
 },
 "C109": {
  "note": "C109_gravities, C109_weightless (simulations without observers). C109_witness and C109_weightless_witness: two slides with two weight controllers."
 }
}