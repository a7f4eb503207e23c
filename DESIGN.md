# Formal model of arboris-python in Rocq (Coq 8.16.1)

## Layout

* `rocq/theories/Model_*.v` – the model: Gallina functions mirroring the Python functions branch by branch. Each definition carries the
  file:lines it models and the simplifications made.
* `rocq/theories/Spec_*.v` – small independent specifications (rose trees, rigid motions, componentwise derivatives, rigid-body mass
  matrices, signed distances, what a URDF file describes ...). They do not use the functions of the model under test.
* `rocq/theories/Proof_*.v` – proofs.
* `rocq/theories/Props_*.v` – the property theorems `Cxx_...`, each followed by `Print Assumptions`, and non-vacuity examples
  (`Cxx_witness`, `Example ...`) showing concrete or general cases meeting the hypotheses.
* `properties.jsonl` (from `tools/gen_properties.py`), `MANIFEST.json` (from `tools/gen_manifest.py`), `ASSUMPTIONS.md` (from
  `tools/gen_assumptions.py`: `Print Assumptions` of every property theorem), `seeded/LOG.jsonl` (wrong programs tried,
  `tools/mutate.py`, `tools/mutbatch.py`).

Names: `Cxx_name` – proved; `Cxx_name_partial` – a part or a restricted range, what is missing is in the manifest note;
`Cxx_name_refuted` – the model of the code violates the claim (a defect of the library), proved as such.

## Modelling decisions

* **Exceptions are values** (`res A := Ok a | Err exn`). Functions that mutate before raising are modelled as
  `state -> state * res A`, so the state left behind by a failing call is visible. Where the partial effects of a failing call are not
  modelled, the comment says so.
* **Numbers.** Floats are modelled by exact reals (Coq `R`): no rounding, no nan/inf, no overflow. Where Python would produce a nan the
  model reports an error, and the comment says so.
* **numpy arrays.** Shapes are types: `v3`, `m3`, `m4` (blocks rot, pos, bottom row, corner), `v6` (angular, linear), `m6` (2x2
  blocks); things of size ndof are functions on `nat` used below ndof (`vec`, `mat`); a 6 x ndof jacobian is a function column -> `v6`.
  Calls with wrong shapes (`assert x.shape == ...`) are not modelled.
* **Views.** The arrays of velocities are a store of arrays with views (`View arr start len`), since `World.init` makes joint
  velocities alias slices of the world vector. Other arrays are values (aliasing of `MovingSubFrame.bpose`, `joint.gpos` is not modelled).
* **numpy.linalg and numpy functions** (`inv`, `pinv`, `eig`, `eigvals`, `solve`, `argsort`) are parameters. The theorems quantify over every
  function satisfying the defining property, which appears as a hypothesis in the statement (`eigs_ok`, `argsort_ok`, Penrose
  equations, ...); witnesses show such functions exist (for `eigvals`: `Props_Robots2.eigs_exist`, from `Proof_Eig.eig_list`).
* **Object graph.** Python objects are natural-number identities into a heap of total functions; every identity denotes an object in its
  freshly constructed state until touched. Objects created inside a call take identities given as arguments (`ids`, `uids`), assumed new.
  Recursion on the object graph takes fuel and returns `Err RecursionError` when it runs out, as the interpreter does on a
  cyclic graph; the theorems hold for every fuel above the number of bodies.
* **Dictionaries** are association lists; where Python's iteration order matters, results are stated as membership.
* **Histories.** `reachable` (Spec_World) is the inductive closure of the public operations of World (add_link, replace_joint, register,
  init, writes to joint velocities) from a new world, with any arguments, including refused calls.

## What is modelled, property by property

| id | code modelled | model | how proved |
|----|---------------|-------|------------|
| C01-C04 | core.py NamedObjectsList, name_all_elements | Model_Named | induction on lists; C04: generators are one-shot iterables |
| C05-C12 | core.py World.add_link, replace_joint, iterators, Body.iter_* | Model_World | the heap represents a rose tree (`rep`); each operation refines an operation on trees; induction over histories |
| C13 | World.register | Model_World | invariant over histories |
| C14-C16 | World.init, gvel, JointsList | Model_World (array store, views) | induction over the traversal; store invariant |
| C17 | World.parse | Model_World (event list) | induction over the tree |
| C18-C20, C65 | core.py simulate; observers.py recorders, SaveLogger, EnergyMonitor, CoMObserver | Model_Sim | induction over the timeline; observers only read the world |
| C21, C22 | shapes.py, collisions.choose_solver, get_all_contacts | Model_Coll | case analysis, list induction |
| C23-C30 | homogeneousmatrix.py, twistvector.py, adjointmatrix.py | Model_Linalg, Model_Hg | algebra, trigonometry, `derivable_pt_lim` |
| C31-C35 | joints.py (13 classes), rigidmotion.py | Model_Joints | derivatives; induction over steps for C35 |
| C36-C38 | massmatrix.py | Model_Mass | algebra; the box inertia as a Riemann integral (Coquelicot `RInt`) |
| C39-C44 | Body/World update_geometric, update_dynamic, subframes | Model_Dyn | induction on the tree; derivatives along motions |
| C45-C48 | World.update_controllers, update_constraints, integrate | Model_Step | finite sums; loop invariant of the Gauss-Seidel sweeps |
| C46, C47, C61, C63 | controllers.py, observers.EnergyMonitor | Model_Ctl | sums, derivatives of poses |
| C49-C53 | constraints.py | Model_Con | algebra with Penrose equations, derivatives |
| C54-C56 | collisions.py solvers | Model_Coll | vector algebra, projection arguments |
| C57-C59 | visu/world_drawer.py hsv_to_rgb, ColorGenerator, Drawer | Model_Color, Model_Draw | case analysis, histories; the scene graph is that of the tree |
| C60 | robots/snake.py | Model_Robots | induction over the segments, reusing C05-C16, C39 |
| C69, C70 | isadjointmatrix, ismassmatrix | Model_Hg, Model_Mass | case analysis; least eigenvalue of a symmetric matrix by completeness of R and Gauss inversion (Proof_Spectral) |
| C68 | robots/human36 (lengths, bodies, links, tags, shapes as a script of calls on the world) | Model_Build, Model_Human36 | a general theorem on scripts (Proof_Build), then the tables of human36; positions by C39 |
| C62, C66, C67 | robots/urdf (converter; tree, root, chains of the parser) | Model_Urdf | induction over links and joints, reusing C05-C16, C39 |
| C64 | observers.CoMObserver | Model_CoM | derivatives of poses |
| C71 | robots/simplearm (calls on the world interleaved with computations that may raise) | Model_Arm | scripts (Proof_Build); C37 for the masses, C39 for the poses, trigonometry |
| C72 | robots/simpleshapes | Model_Arm | scripts; C70 for the acceptance of the masses |
| C73 | choose_solver, collision solvers and SoftFingerContact.update together | Model_Coll, Model_Con | C54-C56 composed with C39 (poses) and C53 (update) |
| C74 | robots/icub.py: tables, T_DH, add (dict orders arbitrary), limits | Model_Icub (on Model_Build, Model_Arm) | tables evaluated by the kernel; build lemma of C68; kinematics by induction on the limbs; mirror by conjugating each mount with a change of signs |
| C75 | robots/icub.py: limits, shape names | Model_Icub | counterexamples for every option |
| C76 | robots/human36: inertias of the hands | Model_Human36 | counterexample for every humanoid |
| C77 | robots/simplearm: refusals with shapes | Model_Arm | counterexample |
| C78 | massmatrix.ismassmatrix against rigid bodies | Model_Mass | counterexample |
| C79 | CoMObserver.get_CoMdJacobian | Model_CoM | derivatives of poses, exact error |
| C80 | world-level N matrix | Model_Dyn | derivative of the mass matrix in every world with the exact error term (Spec_Defect: what djacobian forgets, propagated along the chain of joints); equality on djac_safe trees; counterexample elsewhere |
| C81 | the two collada drivers as functions from drawer calls to documents: nodes, instances of the meshes of simple_shapes.dae, materials (dae_writer.py, visu_collada.py) | Model_Dae, Spec_Dae (in_mesh, covers) | document invariant along the drawer's events; points covered by each mesh under its transforms (Props_Dae) |
| C82 | create_inertia, physics model | Model_Dae | principalframe (C38) and rotzyx_angles (C29) (Props_Dae2) |
| C83 | create_line, create_frame_arrows | Model_Dae | zaligned (C30) and the items of the drawer (Props_Dae3) |
| C84 | _get_collada_id | Model_Dae | ids assigned in order of creation; pigeonhole for the refutation (Props_Dae4, Props_Dae5) |
| C85 | write_collada_scene, write_collada_animation(_from_transforms), view (dae_writer.py:28-150, visu_collada.py:23-53, 282-283): a channel per saved array, whose target is the node of this id | Model_Anim, Spec_Anim (shown) | the document of C81-C84 and the log of C20: constant nodes have no channel, the others one; induction on the node tree (Props_Anim, Props_Anim2) |
| C86 | PickleLogger/Hdf5Logger.finish (observers.py:318-394), the reader of dae_writer.py:66-74; numpy arrays and HDF5 datasets as a shape and a value per index, require_dataset, broadcasting; names without slash | Model_File, Spec_File | induction on the groups and arrays; the log of C20 (Props_File) |
| C87 | DaenimCom.init/update, packing_transform (visu_collada.py:164-235), SocketCom.finish (observers.py:398-445); the printing of numbers is a parameter, the socket is only connected or not | Model_Com, Spec_Com | lines and words of the message, the poses of C85, the schedule of C18 (Props_Com, _2, _3) |
| C88 | the arrays of core.py as objects: attributes refer to arrays, methods write in place or make new arrays (core.py:684-745, 747-812, 886-893, 1061-1067, 1112-1171, 1269-1440; joints.py:64-66); the controllers and the constraints through the values they return | Model_Mem, Spec_Mem | refinement of the value model and preservation of arrays by every call (Proof_Mem 1-5, Props_Mem, Props_Mem2) |
| C89 | idem | Model_Mem, Spec_Mem | the places of the matrices never change without init (Props_Mem), one-hinge world (Props_Mem2) |
| C90 | idem, the array given to a frame is kept | Model_Mem, Spec_Mem | in-place writes (Props_Mem) |
| C91 | MatlabRobotGenerator (matlab/convert_py2mat.py:236-446) as the sequence of the assignments it writes; layout and rounding of the text not modelled | Model_Matlab, Spec_Matlab | induction on the tree of the robot (Proof_Matlab 1-3, Props_Matlab, Props_Matlab2, witness in Props_Matlab3) |
| C92 | MatlabSimulationGenerator (matlab/convert_py2mat.py:160-233), arange on exact reals | Model_Matlab | Props_Matlab3 |
| C93 | MatlabConverter (matlab/convert_py2mat.py:19-158) on the world model; the identities of the new objects are given in advance | Model_Convert, Spec_Convert | loop invariant of _traverse over the index of the list that replace_joint changes, then induction on the tree (Proof_Convert 1-4, Props_Convert 1-4), reusing C11, C34, C91, C92 |
| C94 | urdf_parser.py, reading: documents as DOM trees (elements, texts, comments, other nodes), [split], the parse methods | Model_UrdfXml, Spec_UrdfXml (relations between elements and objects) | induction on the children of each element (Props_UrdfXml 1-3) |
| C95 | urdf_parser.py, writing (to_xml methods) | Model_UrdfXml, Spec_UrdfXml | each to_xml is inverted by the parse of the same class (Props_UrdfXml4) |
| C96 | URDFConverter.get_visual_shapes, get_collision_shapes, parseURDF (robots/urdf/__init__.py), what add_shapes_to_dae does of an item | Model_UrdfShapes, Spec_UrdfShapes | loop over the links, then the coverings of C82 (Props_UrdfShapes) |
| C97 | the three functions of limits; the passage from the parser to load_in_world (C62_document, C67_document) | Model_UrdfShapes, Spec_UrdfShapes | invariant of the dictionary (Props_UrdfShapes2) |
| C98 | add_shapes_to_dae and its helpers (visu/dae_writer.py:157-314) on documents as trees of nodes with libraries indexed by id; the display of the written document looks references up by id | Model_AddShapes, Spec_AddShapes | nested induction on the nodes, invariant of the libraries (Proof_AddShapes, Props_AddShapes, Props_AddShapes2) |
| C99 | World.init on a world in any state reached by a simulation, the loop of simulate | Model_Sim, Model_World, Spec_Resume | relation of two runs whose arrays are allocated differently, preserved by the four phases of a step; World.init is the identity up to it on an initialised world (Proof_Resume, Proof_Resume2, Props_Resume) |
| C100 | PerfMonitor (observers.py:95-165) driven by the calls of the schedule of simulate, with the readings of the clock given | Model_Perf, Spec_Sim | induction on the timeline, telescoping sums (Props_Perf) |
| C101 | two runs of simulate, the robot displaced by a rigid motion | Spec_Move, Model_Sim | simulation relation kept by each phase of a step: equivariance of Body.update_dynamic by induction on the tree, of the controllers, of the relaxation and of FreeJoint.integrate (Proof_Move, Proof_Move2, Proof_Move3, Props_Move) |
| C102 | simulate on a robot at rest | Spec_Rest, Model_Sim | invariant (positions, null velocities, quiet constraints) kept by each phase of a step (Props_Rest) |
| C103 | World.update_dynamic, simulate on several robots | Spec_Apart, Model_Dyn, Model_Sim | null columns of the jacobians of the other branches; block systems solved independently; two-run invariant of each phase of a step (Proof_Apart, Proof_Apart2, Proof_Apart3, Props_Apart, Props_Apart2) |
| C104 | World.register, World.update_controllers, simulate | Spec_Order, Model_Step, Model_Sim | permutation of the sum of forces and impedances, and of the init of the controllers; every other phase commutes with the reordering (Props_Order) |
| C105 | simulate | Spec_Start, Model_Sim | every phase of a step commutes with the shift of the clock; induction on the timeline (Props_Start) |
| C106 | simulate, Body.update_dynamic, the controllers | Spec_Units, Model_Dyn, Model_Ctl, Model_Sim | every phase of a step commutes with the scaling (uniqueness of the inverse); induction on the timeline; counter-example for the absolute limit on masses (Props_Units) |
| C107 | World.register, simulate | Spec_Decor, Model_World, Model_Sim | every phase of a step commutes with the change of the lists of frames and shapes and of the names; induction on the timeline (Props_Decor) |
| C108 | World.update_constraints, simulate | Spec_Disabled, Model_Step, Model_Con, Model_Sim | the passes of the solver skip the constraints without slice; induction on lists, iterations and timeline (Props_Disabled) |
| C109 | WeightController, World.update_controllers, simulate | Spec_Gravity, Model_Ctl, Model_Step, Model_Sim | the sums of the forces are the same at every step (linearity of the loop over the bodies); induction on the timeline (Props_Gravity) |

Properties that the faithful model violates get a theorem `..._refuted`, and the strongest part found to hold is proved next to it
(with exact error terms where possible: C28_small_angle_defect, C29_band_error, C79_djacobian_error, C42_djacobian_error, C80_power, C63_energy_balance).

## Not modelled

Floating-point rounding; printing, logging and warnings; files, sockets and processes (the XML text of collada files and
the pycollada library: documents are modelled as trees of nodes; the facets of simple_shapes.dae; the pickle format; HDF5 files are modelled as datasets with a shape; sockets are only connected or not; PerfMonitor's clock); the XML text of URDF files (documents are modelled as DOM trees); the graphic attributes of drawn items; plotting; Python's dynamic typing beyond the errors cited in the comments;
examples, tests and matlab/simulation.py (and the rest of the matlab directory but convert_py2mat.py).

## Trusted base

* The kernel of Coq 8.16.1 (including its virtual machine, used by `vm_compute` in a few Examples of Props_World; no native compilation, no kernel check is switched off, no plugin is used).
* The axioms listed for each theorem in `ASSUMPTIONS.md`, all from the standard library:
  `ClassicalDedekindReals.sig_forall_dec`, `ClassicalDedekindReals.sig_not_dec`,
  `FunctionalExtensionality.functional_extensionality_dep` (the real numbers; functional extensionality is also used directly),
  `Classical_Prop.classic` (Reals, excluded middle), and, only for the existence of eigenvalue functions (witnesses of C60, C62 ...),
  `RelationalChoice.relational_choice` and `ClassicalUniqueChoice.dependent_unique_choice` (through `ClassicalChoice.choice`).
  The abstract constants of the module `Rdefinitions` (`RbaseSymbolsImpl`, `RinvImpl`) and of `ssrunder` that a scan of the
  loaded libraries shows are opaque definitions of the standard library, not assumptions of the theorems.
* Coquelicot and mathcomp are used as proved libraries only (no axiom of theirs is assumed).
* The reading of the Python code: that each Gallina definition says what the cited lines do. No code was run.
