# Formal model of orocos KDL in Rocq (Coq 8.16.1): design

## 1. What is modelled and how

Source: `/repo/orocos_kdl/src` (C++). The model is hand-written Gallina, one
definition per C++ function, each carrying a comment with file and lines.

Idealisation shared by every numeric file: a C++ `double` is a Coq real `R`.
Rounding, overflow, NaN and infinities are therefore *not* modelled (the
exceptions: text of numbers, C55, and the `Fl*` models of C71, C79, C83 and C85 to C91, which
round after every operation, with gradual underflow but without overflow; C87 and C88 have an outcome for NaN and infinities); what is proved is the exact-arithmetic meaning of
the code, including every branch, tolerance comparison, index and error code.
Division by zero and reads outside an array are not given a value by fiat in
property statements: either the statement carries the guard (`d <> 0`) or the
model returns a distinct undefined outcome.

Conventions:

* `Vector`, `Rotation` (row-major, nine entries), `Frame`, `Twist`, `Wrench`
  are records of reals.
* `JntArray`/Eigen vectors are `list R`; a `Jacobian` is a list of columns
  (one `Twist` per joint), element access goes through `nth_error`, and an
  access outside the array is the outcome `Undef` (C++ undefined behaviour).
* A solver call is a function `state -> inputs -> outcome (code, outputs)`.
* Loops are structural recursion or folds; unbounded C++ loops get fuel and a
  distinct out-of-fuel outcome.
* Calls to other solvers passed by reference (IK velocity solvers inside IK
  position solvers, ...) are function parameters of the model and universally
  quantified in the theorems.

File layout in `rocq/theories`:

* `*Model.v`   – definitions only (the model of the code, with citations);
* `*Spec.v`    – the small independent specification vocabulary;
* `*Proofs*.v` and the other files – lemmas;
* `*Witness.v` – concrete cases meeting the hypotheses;
* `*Props*.v`  – the property theorems, each closed by `exact`, with
  `Print Assumptions`; the non-vacuity theorems are named `…_witness`,
  `…_example` or stand in the same group.

| Model file | Code modelled |
|---|---|
| `FramesModel` | frames.hpp/.inl/.cpp: vectors, rotations, frames, twists, wrenches, 2D types, Euler/RPY/quaternion/DH, diff/addDelta/Integrate, Equal |
| `DualModel` | rall1d.h, rall2d.h, framevel.hpp/.inl, frameacc.hpp/.inl |
| `InertiaModel` | rotationalinertia, rigidbodyinertia, articulatedbodyinertia |
| `KinModel` | joint, segment, chain, jacobian, chainfksolverpos/vel_recursive, chainjnttojacsolver, chainjnttojacdotsolver |
| `TreeModel` | tree.hpp/.cpp, treefksolverpos_recursive, treejnttojacsolver |
| `LinModel`, `DynModel` | ldl_solver_eigen, chainidsolver_recursive_newton_euler, chaindynparam, chainfdsolver_recursive_newton_euler incl. RK4Integrator |
| `TreeDynModel` | treeidsolver_recursive_newton_euler |
| `ProfModel` | velocityprofile_{dirac,rect,trap,traphalf,spline} |
| `PathModel` | rotational_interpolation_sa, path_{point,line,circle,composite,cyclic_closed,roundedcomposite}, trajectory_{segment,stationary,composite} |
| `JntModel` | jntarray, jntarrayvel, jntarrayacc |
| `IkModel`, `LmaModel` | chainiksolverpos_{nr,nr_jl,lma}, treeiksolverpos_{nr_jl,online} |
| `VelIkModel` | chainiksolvervel_{pinv,pinv_nso,wdls}, treeiksolvervel_wdls |
| `SvdModel` | svd_eigen_HH.cpp, svd_HH.cpp |
| `HdModel` | chainhdsolver_vereshchagin (chainidsolver_vereshchagin is the same class) |
| `EwModel` | chainexternalwrenchestimator |
| `PinvModel` | the call from chainiksolvervel_pinv to SVD_HH (joins `VelIkModel` and `SvdModel`) |
| `GivensModel` | chainiksolvervel_pinv_givens, utilities/svd_eigen_Macie |
| `MioModel` | Read and Write of path_*, rotational_interpolation*, velocityprofile*, trajectory* |
| `FlModel` | the forward position solver again (frames, joint, segment, chainfksolverpos_recursive), every operation followed by a rounding function, sin and cos by given approximations |
| `MiscModel` | jntspaceinertiamatrix, stiffness.hpp, utilities/error_stack, random/posrandom of utilities/utility.h |
| `KioModel` | kinfam_io.cpp, Joint::getTypeName |
| `FlJacModel` | ChainJntToJacSolver, Segment::twist, Joint::twist and Twist::RefPoint with a rounding after every operation |
| `RobotModel` | Puma560() and KukaLWR_DHnew() of the models directory |
| `LifeModel` | which members of solvers are references and which are copies; names, attributes and reference counting in the Python bindings |
| `DioModel` | operator<< of velocity and acceleration objects and of automatic differentiation numbers |
| `TreePyModel` | Tree.getChain as Python sees it |
| `FlVelModel` | velocity forward kinematics with a rounding after every operation |
| `FlTreeModel` | tree forward kinematics with a rounding after every operation |
| `FlRotModel` | rotation constructors, in-place rotations and frame inverse with a rounding after every operation |
| `FlQuatModel` | `GetQuaternion` with a rounding after every operation |
| `FlNormModel` | `Norm`, `Normalize`, `Rot` and joint axes with a rounding after every operation |
| `FlDynModel` | `ChainIdSolver_RNE` and the vector terms of `ChainDynParam` with a rounding after every operation |
| `FlMassModel` | `ChainDynParam::JntToMass`, `ldl_solver_eigen` and `ChainFdSolver_RNE` with a rounding after every operation |
| `FlSimModel` | `RK4Integrator` with a rounding after every operation, and repeated steps |
| `OwnModel` | constructors, Add, Clone, destructors and Read of paths, trajectories, interpolators and profiles, as operations on a heap of owning pointers, with exceptions |
| `PyModel` | operator() of the geometric types, Make4x4, setters of columns; Python: __getitem__, __setitem__, iteration, pickling |
| `EqModel` | Equal, operator== and std::hash of the geometric types, hash_combine.h |
| `IoModel` | utilities/utility_io.cxx, frames_io.cpp, printing and scanning of numbers by libstdc++ |

## 2. Per property

| Id | Model | Proof idea |
|----|-------|------------|
| C01 | rotation constructors, expression language of API calls | induction over the expression, trig identities |
| C02, C03 | frame/twist/wrench algebra | ring identities with orthonormality |
| C04 | Norm/Normalize with all branches | case split on comparisons, sqrt algebra |
| C05 | Rot/Rot2 | Rodrigues identities |
| C06 | GetRotAngle incl. tolerance branches, atan2 | characterisation of SO(3); exact statement outside bands |
| C07 | Quaternion/GetQuaternion, four branches | SO(3) minors identities, branch guards nonzero |
| C08, C09 | RPY/ZYZ and extraction with atan2 | atan2 correctness lemma |
| C10 | diff/addDelta | from C06 |
| C11 | DH frames | trig/ring |
| C12 | Equal | pointwise reals |
| C13 | Integrate as state machine | induction over the call list |
| C14, C15 | 2D types, Set2DPlane as assignment | ring; witness for refutations |
| C16, C17, C56 | Joint, Segment | derivatives (`derivable_pt_lim`), Rodrigues |
| C18 | Chain as state machine | induction over op list |
| C19, C20 | FK solver with error codes, `Undef` for out-of-range reads | induction over segments |
| C21 | FK vel solver | product rule by induction |
| C22, C23 | Jacobian solver, locked joints | loop invariant |
| C24 | Jacobian transforms | linearity by induction over columns |
| C25 | JacDot solver | derivative of the Jacobian columns |
| C26 | solver state (cached sizes) + chain edits | state machine; witness for the refutation |
| C27–C29, C57 | Tree as finite map by name, children lists | invariant by induction over construction histories |
| C30 | getChain | path decomposition, group laws; every segment by induction along the path |
| C31, C32 | tree FK, tree Jacobian | induction on depth |
| C33 | LDL solver loops over functions nat->nat->R | sums, induction on pivots |
| C34 | inertias | ring |
| C35–C37, C39, C58 | RNE, CRBA, FD solvers | two-sweep recursion as structural recursion, linearity, virtual work |
| C38 | tree RNE | simulation between the two sweeps |
| C40–C43, C60, C61 | velocity profiles | real arithmetic, case analysis; comparison argument for optimality |
| C44–C46, C62 | paths, composites, trajectories | derivatives; invariant of the lookup cache |
| C47–C49 | IK loops with arbitrary inner solvers | loop invariants over fuel = maxiter |
| C50, C51 | Rall1d/2d, FrameVel/FrameAcc | derivatives of the represented functions |
| C52 | JntArray with aliasing | memory model: destination index = source index |
| C53 | pinv/nso/wdls given an arbitrary decomposition | linear algebra over finite sums |
| C54, C64 | the whole Householder SVD, loop by loop | invariant "A = U B V^T, U, V orthogonal" through all phases |
| C55 | character-level printer and reader | soundness and completeness of the reader; Flocq for 17 digits |
| C59 | RK4Integrator with an arbitrary dynamics function | algebra; witness for the refutation |
| C65 | the three sweeps of the Vereshchagin solver | abstract articulated-body recursion (invariant: force = P a + R + E nu), solved joint by joint; least squares from C53 |
| C66 | the estimator as a state machine over calls | invariant relating its buffers to one first-order observer per joint, through any history; a Lyapunov function for the rate; pseudo-inverse from C53 |
| C67 | the Jacobi sweeps (fuel, with running out as a visible result) inside the solver's state machine | potential function on the Gram matrix for termination; invariant over all histories that the stored factors stay nearly orthogonal; perturbation bound for the answer; refutations on concrete chains |
| C68 | the readers over the character stream of C55, fuel by text length; the writers over path and profile records | grammar as an inductive relation in MioSpec: readers complete and sound for it, written texts are in it; witnesses for the refutations |
| C69 | pinv with its own SVD_HH inside | C64 and a perturbation bound for truncated pseudo-inverses (NearSvd); a run computed by hand for the refutation |
| C70 | the Newton loops of C47/C48 with an accurate velocity solver, and with the pinv solver of C53 | Jacobian and pose are Lipschitz near a position (LipProofs), first-order Taylor bound of the pose (TaylorProofs), one step shrinks the error by a factor beta (NewtonProofs), induction over the iterations including the blind spot of diff for tiny rotations (NewtonLoop); full row rank persists nearby (NewtonPinv), there the sixth singular value is above eps so the damped solver does not damp (NewtonWdls); for LMA, the damped step leaves at most lambda/(lambda+2m) of the squared error (LmaConv1), the error after a step is the linear prediction up to a small fraction (LmaConv2, LmaConv3), so the gain ratio is at least 1/2, lambda never grows and a potential keeps the iterates near (LmaConv4) |
| C71 | `FlModel`: forward kinematics with a rounding after every operation; rounding, sin and cos are parameters with error eps | an error calculus for sums and products (FlProofs, FlJoint), perturbation of the frame product, induction over the segments (FlChain); Flocq's binary64 meets the hypotheses (FlWitness); parity of numerators for the refutation |
| C72 | matrices in a store, coefficient-wise assignment as in C52 | index arithmetic of the column-major storage; the loop lemma of C52; a 2x2 run for the refutation |
| C73 | six numbers | algebra; bounds of the quotient rand()/RAND_MAX |
| C74 | list of strings, buffers as character lists | induction over nested call sequences; list lemmas |
| C75 | texts as character lists, recursion over trees with fuel | induction over the rank of a segment; prefix codes: a header, a vector or a frame can be taken off the front of a text in one way (the readers of C55 give this for vectors and frames); width of a printed number |
| C76 | comparison functions on records, hash_combine on integers modulo 2^64, std::hash<double> as a parameter | members of objects as lists of reals; a walk in steps below the tolerance connects any two objects (rotations: along the angle, by C06) |
| C77 | element access as functions on arrays with undefined behaviour outside; the Python layer as functions from unbounded integers to a value or an exception; pickles as trees | members as lists, entries of matrices from the action on basis vectors; round trip of rotations from C08; induction over the tree |
| C78 | heap of cells; results are ok, exception, undefined; oracle for the circles that throw; order of evaluation as a parameter | the heap is a forest of owned objects plus what has leaked: invariant of all histories, by induction over trees, texts and histories |
| C79 | FlJacModel: every operation followed by a rounding function | lock-step run against the exact solver; the velocity of each column moved to the base origin is invariant, so rounding errors add up linearly |
| C80 | the two chains as the constructors build them | pose and Jacobian in closed form, computed from the tip backwards; the rank is read off the Jacobian seen from the wrist; energies of the links are sums of squares |
| C81 | objects at addresses, names, a sweep of what is neither named nor kept alive | invariant over programs (attributes point into a living object, references to older objects); a solver's reads by induction on its age; the hypothetical keep_alive is a parameter of the model |
| C82 | the output operators over the number formatting of C55 | layout against a grammar with free blanks; prefix determinacy member by member, by the readers of C55 for vectors and matrices and by the characters of numerals for plain numbers |
| C83 | the recursion over FrameVel with a rounding after every operation | the pose invariant of C71 plus bounds on the angular and linear velocity and their errors, step by step; the derivative by C20; the pose by running both solvers in lock step |
| C84 | the position solvers of `IkModel` with the modelled forward and velocity solvers plugged in; `session` runs any list of calls on one object (no new model) | an invariant on the inner solver's buffers kept by every call, induction over the solver's loop and over the session; a second run in lock step for the independence from earlier calls |
| C85 | `fl_treefk_JntToCart`: the recursion of the tree solver with the rounded segment pose and product of C71 | induction along the path to the root with the error invariant of C71; both solvers are shown to be the same left fold over the path |
| C86 | `fl_run`, `fl_frun`: programs that nest rotation and frame calls, each call in rounded arithmetic | induction on the program with a factor 1+110 eps per call on the operator norm of the error; orthonormality from (M'-M)^T M' + M^T (M'-M) |
| C87 | `fl_GetQuaternion` with a rounding after every operation and `None` for NaN and infinities | each branch guarantees that the component under the root is at least 0.47 in exact arithmetic although only rounded numbers were compared; error propagation through root and division from there |
| C88 | `fl_norm`, `fl_normalize`, `fl_Rot`, `fl_joint_axis` with a rounding after every operation and `None` for NaN and infinities | the four cases reduce to one scaled formula whose root lies between 1 and 1.74; relative error of the last product; division and C71's bound for `Rot2` on top |
| C89 | `fl_rne_CartToJnt`, `fl_dyn_JntToCoriolis`, `fl_dyn_JntToGravity` with a rounding after every operation | the relation "equal up to a constant times the error, uniformly in the arithmetic" is closed under every operation, array access and loop of both sweeps |
| C90 | `fl_dyn_JntToMass`, `fl_ldl_solver`, `fl_fd_CartToJnt` with a rounding after every operation | the relation of C89 for matrices; divisions by the exact pivots, which are not zero, are covered once the error is small enough; the pivot used in a column is the final one because later columns leave it unchanged |
| C91 | `fl_rk4_step` and `fl_simulate`, with the forward dynamics of C90 in every stage | the lemmas of C90 with errors in all arguments; induction over the steps, for arms whose mass matrix is definite everywhere (C36) |
| C63 | constructors and setters | computation on the model, histories of calls |

## 3. Parts taken as given (oracles)

Every oracle is a universally quantified argument of the theorems, never an
axiom; hypotheses about it are written in the statement.

* `IkModel`: the forward kinematics and inverse velocity solvers handed to the
  position solvers, with their own hidden state `W`.
* `LmaModel`, `VelIkModel`, `HdModel`, `EwModel`: the singular value decomposition. The statements
  that need it carry "U, V orthogonal, A = U S V^T" as a hypothesis; C64 proves
  that property of the repository's own routine.
* `DynModel.RK4`: the forward dynamics function called four times per step.
* `SvdModel`: a function `rnd : R -> R` wrapped around the one expression whose
  value the code compares with itself to detect underflow, so that the theorems
  do not depend on exact arithmetic there. `checked` selects the sibling
  routine svd_HH.
* `IoModel`: `rd : R -> R`, the rounding done when text is turned into a
  double; libstdc++'s printing of a double with a given precision is modelled
  as correct decimal rounding of its exact value (general format), and
  stream scanning as in the C locale. No infinities, NaN or overflow.

## 4. Not modelled

the Python bindings except indexing, iteration and pickling (C77) and lifetimes (C81); Eigen itself (its operations are given their mathematical
meaning, sizes checked); memory management except for paths and trajectories (C78) and where the text above
says so; compiler floating-point behaviour; `rallNd.h` (does not compile),
unless section 1 lists them.

## 5. Trusted base

* Coq 8.16.1's kernel.
* The axioms `Print Assumptions` lists, per theorem, in `ASSUMPTIONS.md`
  (generated from the build). Over all theorems these are exactly four axioms
  of the standard library: `ClassicalDedekindReals.sig_forall_dec`,
  `ClassicalDedekindReals.sig_not_dec`,
  `FunctionalExtensionality.functional_extensionality_dep` and
  `Classical_Prop.classic`. No axiom, parameter, functor or module type is
  declared here; no kernel check is switched off.
* Flocq is used as a library of definitions and lemmas for C55, C71, C75, C79 and C82 (binary64
  and its rounding); it contributes no axiom.
* The reading of the C++ text by which the definitions in `*Model.v` were
  written, including the idealisations of sections 1 and 3.

## 6. Findings: what a user might rely on and the code does not do

Each is a theorem named `…_refuted` (or an explicit undefined-behaviour
theorem) with a concrete witness.

Geometry: `Vector::Norm` returns 0 for a short vector only if its longest
component is x (C04); `Rot` about a vector shorter than epsilon turns about x
(C05); axis-angle extraction with a small eps, RPY within 1e-12 of gimbal lock
and ZYZ with the default tolerance do not round-trip (C06, C08, C09); `diff`
drops small rotations (C10); `Equal` is not transitive (C12); `Integrate` is
not exact for a twist that moves and turns (C13); `Frame2::operator()` and
`Set2DPlane` (C14, C15); rotations as near as one likes can have quaternions of
opposite sign (C87).

Dual numbers: `Rall2d::operator*=` uses the updated value, `RotationVel::RotY`
returns RotX, `diff(FrameVel)` swaps its arguments (C50, C51).

Chains and trees: assigning a chain to itself duplicates it, a tree to itself
empties it (C18, C29); copying a tree renumbers joints, so solvers holding a
copy disagree with the original (C29); failed `addChain` leaves part of the
chain (C28); reversed joints lose their scale in `getChain` (C30); in Python `getChain` drops the bool,
so an unknown name looks like an empty chain (C30); tree solvers
reject trees without joints (C31, C32); locked joints in the Jacobian
derivative read out of range (C25).

Dynamics: the forward dynamics solver never accepts a chain that changed (C26);
RK4 weights are wrong for positions (C59); failed tree inverse dynamics
overwrites the output (C38).

Profiles and paths: see the `…_refuted` theorems of C41–C46, C61, C62
(standstill requests, clones of half-trapezoidal profiles and circles, twist
frames, velocity at knots, rounded corners with short legs, durations after
`Destroy`).

Inverse kinematics: without limits the JL solver forbids negative joint values
(C47); `q_out` is one step past the pose that was tested, `getError()` is not
updated on success (C48); twists of endpoints that were not requested leak into
later solutions (C47, C49); Cartesian speed limiting can speed up (C49); LMA
diagnostics (C48).

Velocity inverse kinematics: fewer than six joints are out of range in nso and
wdls; singularity is never reported by pinv for fewer than six joints; default
lambda divides 0 by 0 at a singularity; weight matrices are checked by total
size only (C53).

Singular values: non-convergence is not reported, one iteration is always a
failure, and `-2` counts as zero because of a misplaced parenthesis (C54, C64).
So the pinv solver, asked to move the tip of a two-joint machine along x, reports
no error and moves it the other way (C69).

Hybrid dynamics: the documented use of `constraint_torque` as the joint command
that produces the computed motion fails on two sliders in series; the force on
the end effector is minus `alpha * nu`; a fixed joint divides by zero; a stale
joint count (same number of segments) is out of range (C65).

External wrench estimation: `setInitialMomentum` on a moving arm before the first
sample, as documented, makes the first estimate wrong by the gain times the
momentum (the previous mass matrix is still zero); after a change of the number
of joints and `updateInternalDataStructures` the next call reads an
uninitialised matrix; a gain of twice the sample frequency never converges
(C66).

Velocity inverse kinematics with plane rotations (`ChainIkSolverVel_pinv_givens`):
at a singular configuration the sweeps never end; a planar arm of three to six
joints never returns from its first call; a new object whose Jacobian rows are
already orthogonal (a gantry, or any one-joint chain) reads uninitialised
singular values; when the stored rotation still fits, the old factors are used
although the Jacobian changed (turning the base by pi makes the tip move the
wrong way); the first call looks at the leading square block of the Jacobian
only. Not covered: an object whose chain was edited to another joint count
(C67).

Text: a word of ten or more characters overruns its buffer, truncated text does
too, default precision loses digits, `operator>>(Rotation2)` discards what it
read (C55).

Text of motions (C68): a circle writes the direction of its Y axis where the
reader expects a point, so it comes back in another plane or throws
`Error_MotionPlanning_Circle_No_Plane`; the motion of a velocity profile is not
in its text (a trapezoidal segment read back has duration 0 and stands still,
the other profiles read uninitialised members); spline profiles, stationary and
composite trajectories write texts no reader accepts; the two- and three-axis
interpolations throw `Error_Not_Implemented`; texts cut off inside an opening
bracket and keywords of 64 or more characters are undefined behaviour; a
profile at the end of a text leaves the stream failed.

Rounding (C71): no rotation matrix computed by RotX, RotY or RotZ in doubles is
exactly orthonormal unless its sine or cosine is zero, so the exact rigid-body laws (C01 and after)
hold of computed poses only up to the error bounds of C71.

Inertia matrices (C72): `Multiply(M, q, q)` in place is wrong, because the product is
lazy and `q` is overwritten while it is read; `resize` leaves the entries undetermined.

Ownership (C78): Path_RoundedComposite with eqradius <= 0 throws from its constructor without deleting
the interpolator that it took over or the composite that it made; Trajectory_Composite::Clone,
Trajectory_Segment::Clone and Path_RoundedComposite::Clone lose the copied part when a later copy throws;
Clone of a circle, composite or cyclic path with aggregate = false copies the member but passes on
aggregate = false, so that nobody owns the copy (Path_Line does it right); the implicit copy constructors
of all these classes lead to double deletion.

Models (C80): the link inertias of KukaLWR_DHnew are given about the centre of mass but contain
negative numbers: five of its seven links have negative kinetic energy in some motions, so the
mass matrix need not be positive definite.

Python (C81): no constructor in kinfam.cpp or dynamics.cpp says `py::keep_alive`, while the solvers hold
references. `s = ChainFkSolverPos_recursive(tree.getChain(a, b))` leaves `s` with a dangling reference at
once; so does deleting or rebinding the last name of the chain, or of a solver given to Newton-Raphson.

Python (C77): pickling stores rotations as roll, pitch and yaw, although the comment says the
tuple fully encodes the object: rotations near the singularity come back changed (by less than
4e-12), matrices that are not proper rotations come back as other matrices. operator()(i,j) of
Frame2 inherits the transposed Rotation2.

Comparison and hashing (C76): operator== is documented as literal equality but is
Equal with tolerance 1e-6 (KDL_USE_EQUAL is defined), it is not transitive, and objects that
compare equal have different hashes for every std::hash<double> that is not constant.

Text of kinematic structures (C75): the input operators for Joint, Segment, Chain, Tree,
JntArray, Jacobian and JntSpaceInertiaMatrix read nothing and report success; scale, offset
and the other constants of a joint are not printed; with 13 significant digits or more the
numbers of a JntArray run together.

Error trace (C74): `IOTracePopStr` fills the whole announced size.

Joint arrays: `resize` keeps old values, in-place derivative-aware products are
wrong (C52).

## 7. Tests against wrong programs

`seeded/LOG.jsonl` has one line per edit of the model: hand-written realistic
faults and a systematic sweep (changed constants, signs, comparisons, operand
order, dropped updates) over the `*Model.v` files. For each survivor either a
theorem was added or strengthened (named in the line) or the line says why the
edit does not change any observable behaviour.
