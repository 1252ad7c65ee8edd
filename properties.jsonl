{"id": "C01", "title": "Rotations built through the API stay proper rotations", "statement": "Every Rotation obtained from the constructors Identity, RotX/RotY/RotZ, RPY, EulerZYX, EulerZYZ, Rot(axis,angle) (any axis, even zero), Rot2 with a unit axis and Quaternion with a unit quaternion, and from any nesting of products, Inverse and in-place DoRotX/DoRotY/DoRotZ on such values, is orthonormal with determinant +1 (exact arithmetic).", "quantifier": "all angles, axes, quaternions and all finite expressions over these operations", "why_tests_cant": "Closure under an unbounded composition of operations over real angles; tests sample a few angles.", "anchors": ["orocos_kdl/src/frames.inl: Rotation::RotX/RotY/RotZ/DoRotX/DoRotY/DoRotZ/Inverse", "orocos_kdl/src/frames.cpp: Rotation::RPY/EulerZYZ/Rot/Rot2/Quaternion/operator*"]}
{"id": "C02", "title": "Frames form a group acting on points, twists and wrenches", "statement": "For frames with proper rotations: F*F.Inverse() and F.Inverse()*F are Identity, product is associative, (F*G)*x = F*(G*x) for points, twists and wrenches, and F.Inverse(x) undoes F*x for points, twists and wrenches.", "quantifier": "all frames with orthonormal M, all points/twists/wrenches", "why_tests_cant": "Algebraic laws over all reals.", "anchors": ["orocos_kdl/src/frames.inl: Frame::operator*, Frame::Inverse, Rotation::Inverse"]}
{"id": "C03", "title": "Changing reference frame or reference point never changes power", "statement": "dot(F*t, F*w) = dot(t,w), dot(R*t,R*w) = dot(t,w), and dot(t.RefPoint(p), w.RefPoint(p)) = dot(t,w); the spatial cross products satisfy dot(a x t, w) = -dot(t, a x w).", "quantifier": "all frames with orthonormal M, twists, wrenches, points", "why_tests_cant": "Identity over all reals.", "anchors": ["orocos_kdl/src/frames.inl: dot, Frame::operator*(Twist/Wrench), RefPoint, spatial cross product"]}
{"id": "C04", "title": "Norm is the Euclidean norm and Normalize yields a unit vector", "statement": "Vector::Norm() returns sqrt(x^2+y^2+z^2) whenever some component reaches eps in magnitude, is never negative, and differs from the Euclidean norm by less than sqrt(3)*eps otherwise; Normalize returns the Euclidean norm and leaves a unit vector parallel to the input when that norm is at least eps, and otherwise returns 0 and leaves (1,0,0). Same for Vector2. Norm is not invariant under permuting the axes for tiny vectors (refuted).", "quantifier": "all vectors and all eps > 0", "why_tests_cant": "Branches on relative magnitude of components over all reals.", "anchors": ["orocos_kdl/src/frames.cpp: Vector::Norm, Vector::Normalize, Vector2::Norm, Vector2::Normalize"]}
{"id": "C05", "title": "Rot(axis,angle) is the rotation by angle about axis", "statement": "For every axis whose norm is at least the tolerance, Rot(axis,angle) fixes the axis, rotates every perpendicular vector v to cos(angle) v + sin(angle) n x v, composes additively in the angle and inverts to the negated angle; for a shorter axis it silently rotates about X (documented behaviour 'identity' is refuted).", "quantifier": "all axes, angles, vectors", "why_tests_cant": "Ranges over reals; includes the degenerate branch.", "anchors": ["orocos_kdl/src/frames.cpp: Rotation::Rot, Rotation::Rot2"]}
{"id": "C06", "title": "Axis-angle extraction round trip", "statement": "For every proper rotation R outside the tolerance bands and for the exact identity and exact half turns, GetRotAngle returns an angle in [0,PI] and a unit axis with Rot(axis,angle) = R.", "quantifier": "all proper rotations and all eps>0", "why_tests_cant": "Singular branches (identity, half-turn) are measure-zero; must hold for all R.", "anchors": ["orocos_kdl/src/frames.cpp: Rotation::GetRotAngle, Rotation::GetRot"]}
{"id": "C07", "title": "Quaternion round trip", "statement": "For every proper rotation R, GetQuaternion returns (x,y,z,w) with unit norm and Quaternion(x,y,z,w) = R; and for every unit quaternion, GetQuaternion of the rotation it denotes is that quaternion or its negation.", "quantifier": "all proper rotations; all unit quaternions", "why_tests_cant": "Four branches selected by trace and diagonal; quantifies over SO(3).", "anchors": ["orocos_kdl/src/frames.cpp: Rotation::Quaternion, Rotation::GetQuaternion"]}
{"id": "C08", "title": "Roll-pitch-yaw and Euler ZYX round trip", "statement": "For every proper rotation R, RPY(GetRPY(R)) = R whenever the pitch is at least 1e-12 away from +-PI/2 or exactly +-PI/2; the pitch is in [-PI/2,PI/2]; RPY(r,p,y) equals RotZ(y)*RotY(p)*RotX(r) and EulerZYX is the same with the arguments reversed. Inside the 1e-12 band the round trip is not exact (refuted).", "quantifier": "all proper rotations and all angle triples", "why_tests_cant": "Quantifies over SO(3) including gimbal lock.", "anchors": ["orocos_kdl/src/frames.cpp: Rotation::RPY, Rotation::GetRPY", "orocos_kdl/src/frames.hpp: EulerZYX, GetEulerZYX"]}
{"id": "C09", "title": "Euler ZYZ round trip", "statement": "For every proper rotation R with |R(2,2)| <= 1-1e-12 or exactly 1, EulerZYZ(GetEulerZYZ(R)) = R, with beta in [0,PI]; EulerZYZ(a,b,c) = RotZ(a)*RotY(b)*RotZ(c).", "quantifier": "all proper rotations and all angle triples", "why_tests_cant": "Quantifies over SO(3) including the two singular poles.", "anchors": ["orocos_kdl/src/frames.cpp: Rotation::EulerZYZ, Rotation::GetEulerZYZ"]}
{"id": "C10", "title": "diff and addDelta are inverse to each other", "statement": "addDelta(a, diff(a,b,dt), dt) = b for vectors, twists, wrenches and (outside the tolerance bands of the axis-angle extraction, with the relative rotation angle at least the tolerance, or identical orientations) for rotations and frames, for every dt <> 0.", "quantifier": "all pairs of values and all dt <> 0", "why_tests_cant": "Inverse property over all pairs.", "anchors": ["orocos_kdl/src/frames.inl: diff, addDelta, Rot"]}
{"id": "C11", "title": "Denavit-Hartenberg frames", "statement": "Frame::DH(a,alpha,d,theta) equals Rz(theta)*Tz(d)*Tx(a)*Rx(alpha) and DH_Craig1989 equals Tx(a)*Rx(alpha)*Tz(d)*Rz(theta), hence both are rigid transforms.", "quantifier": "all parameter quadruples", "why_tests_cant": "Identity over reals.", "anchors": ["orocos_kdl/src/frames.cpp: Frame::DH, Frame::DH_Craig1989"]}
{"id": "C12", "title": "Approximate equality", "statement": "Equal(a,b,eps) is true exactly when all components differ by strictly less than eps, is reflexive for eps>0, symmetric, monotone in eps, false for every eps<=0, and composes by the triangle inequality (eps1+eps2); it is not transitive (refuted).", "quantifier": "all vectors, rotations, frames, twists, wrenches and eps", "why_tests_cant": "Quantifies over reals and tolerances.", "anchors": ["orocos_kdl/src/frames.inl: Equal", "orocos_kdl/src/utilities/utility.h: Equal"]}
{"id": "C13", "title": "Frame::Integrate keeps frames rigid and is exact for constant pure rotation or pure translation", "statement": "Starting from a rigid frame, after any sequence of Integrate calls the frame is rigid; integrating a constant pure rotation n times at frequency f equals a single rotation by n*|w|/f when each step is above the tolerance; with a pure translation p advances by n*M*v/f.", "quantifier": "all sequences of twists and frequencies", "why_tests_cant": "Unbounded histories.", "anchors": ["orocos_kdl/src/frames.inl: Frame::Integrate"]}
{"id": "C14", "title": "Planar frames", "statement": "Rotation2/Frame2 form a group acting on Vector2, Rot(a)*Rot(b)=Rot(a+b), GetRot(Rot(a)) is congruent to a modulo 2*PI and lies in (-PI,PI]; the element accessor operator()(i,j) returns the transpose of the matrix the rotation acts by (refuted consistency).", "quantifier": "all angles, vectors, frames", "why_tests_cant": "Quantifies over reals.", "anchors": ["orocos_kdl/src/frames.inl: Rotation2, Frame2"]}
{"id": "C15", "title": "Setting a 3D vector from a plane", "statement": "Vector::Set2DPlane(F,v) makes the vector equal to F applied to (v.x,v.y,0). The code never writes the result (refuted); Set2DXY/YZ/ZX followed by Set3DXY/YZ/ZX recover the 2D vector.", "quantifier": "all frames and vectors", "why_tests_cant": "Must hold for every input; a single sample could coincide.", "anchors": ["orocos_kdl/src/frames.inl: Vector::Set2DPlane, Vector::Set2DXY, Vector2::Set3DXY, Vector2::Set3DPlane"]}
{"id": "C16", "title": "Joint and segment twists are the time derivative of their poses", "statement": "Along any differentiable joint motion q(t), Joint::twist(q') is the velocity twist of Joint::pose(q(t)) for every joint type, scale and offset, and Segment::twist(q,q') is that of Segment::pose(q), with the reference point at the segment tip and axes of the segment root; poses are rigid.", "quantifier": "all joint types with unit axes, scales, offsets, tip frames, joint motions", "why_tests_cant": "A statement about derivatives of real functions.", "anchors": ["orocos_kdl/src/joint.cpp: Joint::pose, Joint::twist", "orocos_kdl/src/segment.cpp: Segment::pose, Segment::twist"]}
{"id": "C17", "title": "Segment tip frame", "statement": "For any joint, Segment built with tip frame f has pose(0) = f and getFrameToTip() = f, setFrameToTip(g) makes both equal g, and copies/assignments behave identically.", "quantifier": "all joints and rigid tip frames", "why_tests_cant": "Quantifies over reals and joint types, scale and offset.", "anchors": ["orocos_kdl/src/segment.cpp: Segment::Segment, setFrameToTip", "orocos_kdl/src/segment.hpp: getFrameToTip"]}
{"id": "C18", "title": "Chain bookkeeping", "statement": "After any sequence of addSegment, addChain and copy, getNrOfSegments equals the number of segments added, getNrOfJoints equals the number of those whose joint is not Fixed, and getSegment(i) is the i-th added segment. Assigning a chain to itself empties it (refuted preservation).", "quantifier": "all finite operation histories", "why_tests_cant": "Unbounded histories.", "anchors": ["orocos_kdl/src/chain.cpp: addSegment, addChain, operator=, getSegment"]}
{"id": "C19", "title": "Forward position kinematics is the product of segment poses", "statement": "JntToCart(q,p,k) returns 0 and p = product of the first k segment poses with joint values consumed in order of non-fixed joints; it distributes over chain concatenation, always yields a rigid frame, never reads outside q, returns E_SIZE_MISMATCH exactly when q has the wrong length and E_OUT_OF_RANGE exactly when k exceeds the number of segments, k=-1 meaning the whole chain.", "quantifier": "all chains, joint arrays of any size, all segment numbers", "why_tests_cant": "Quantifies over chain length and joint types.", "anchors": ["orocos_kdl/src/chainfksolverpos_recursive.cpp: JntToCart"]}
{"id": "C20", "title": "The multi-output forward kinematics agrees with the single-output one", "statement": "JntToCart(q, vector<Frame>, k) writes at index i exactly the frame that JntToCart(q,p,i+1) returns, for every i<k, and fails with -1 on size errors; for k=0 it fails.", "quantifier": "all chains, q, vector sizes, k", "why_tests_cant": "Quantifies over chain length.", "anchors": ["orocos_kdl/src/chainfksolverpos_recursive.cpp: JntToCart (vector)"]}
{"id": "C21", "title": "Forward velocity kinematics is the derivative of forward position kinematics", "statement": "Along any differentiable joint motion, the FrameVel returned by the velocity solver has frame equal to the position solver's result and twist equal to the time derivative of that frame (base axes, tip reference point).", "quantifier": "all chains with unit joint axes, all differentiable joint motions", "why_tests_cant": "A derivative statement over chains of every length.", "anchors": ["orocos_kdl/src/chainfksolvervel_recursive.cpp: JntToCart"]}
{"id": "C22", "title": "The Jacobian maps joint velocities to the tip twist", "statement": "With no locked joints, the Jacobian returned by JntToJac times qdot equals the twist of the forward velocity solver, for every segment number; column j is the partial derivative of the tip frame with respect to joint j.", "quantifier": "all chains, joint positions, joint velocities", "why_tests_cant": "Quantifies over chain length; column bookkeeping with fixed joints.", "anchors": ["orocos_kdl/src/chainjnttojacsolver.cpp: JntToJac", "orocos_kdl/src/jacobian.cpp: setColumn, changeRefPoint"]}
{"id": "C23", "title": "Locked joints drop exactly their columns", "statement": "setLockedJoints with a mask of the right size makes JntToJac return the full Jacobian with the locked columns removed and order preserved, and multiplying by the unlocked joint velocities gives the twist with locked velocities zero; a mask of wrong size is rejected and the previous mask kept.", "quantifier": "all chains, all masks", "why_tests_cant": "2^n masks for every n.", "anchors": ["orocos_kdl/src/chainjnttojacsolver.cpp: setLockedJoints, JntToJac"]}
{"id": "C24", "title": "Changing the Jacobian's reference point, base or frame commutes with multiplication", "statement": "changeRefPoint/changeBase/changeRefFrame on a Jacobian followed by multiplication with qdot equals multiplying first and transforming the twist.", "quantifier": "all Jacobians with any number of columns, all joint velocities and transforms", "why_tests_cant": "Quantifies over the number of columns.", "anchors": ["orocos_kdl/src/jacobian.cpp: changeRefPoint, changeBase, changeRefFrame", "orocos_kdl/src/jntarray.cpp: MultiplyJacobian"]}
{"id": "C25", "title": "The Jacobian time derivative solver returns the derivative of the Jacobian", "statement": "Along any differentiable joint motion, JntToJacDot returns for each of the HYBRID, BODYFIXED and INERTIAL representations the time derivative of the Jacobian in that representation; the returned twist is Jdot*qdot. With any locked joint the code writes outside the Jacobian (refuted safety).", "quantifier": "all chains without locked joints, all differentiable joint motions, all three representations", "why_tests_cant": "A derivative statement for all chains.", "anchors": ["orocos_kdl/src/chainjnttojacdotsolver.cpp: JntToJacDot, getPartialDerivativeHybrid/BodyFixed/Inertial"]}
{"id": "C26", "title": "Solvers detect that the chain changed", "statement": "If the chain grows after a solver was built, the solver reports E_NOT_UP_TO_DATE without touching outputs until updateInternalDataStructures is called, after which it works on the new chain. The forward-dynamics RNE solver never recovers (refuted).", "quantifier": "all interleavings of chain edits, updates and solver calls", "why_tests_cant": "Unbounded interleavings.", "anchors": ["orocos_kdl/src/chainfdsolver_recursive_newton_euler.cpp: updateInternalDataStructures, CartToJnt", "orocos_kdl/src/chaindynparam.cpp", "orocos_kdl/src/chainidsolver_recursive_newton_euler.cpp", "orocos_kdl/src/chainjnttojacsolver.cpp"]}
{"id": "C27", "title": "Tree well-formedness under any construction history", "statement": "After any sequence of addSegment, addChain, addTree, copy and assignment, segment names are unique, every segment except the root has a parent in the tree that lists it exactly once as a child, every segment is reachable from the root, the moving joints are numbered 0..getNrOfJoints()-1 without gaps or repeats, and getNrOfSegments is the number of non-root segments.", "quantifier": "all finite operation histories", "why_tests_cant": "Unbounded histories; structural invariant.", "anchors": ["orocos_kdl/src/tree.cpp: addSegment, addChain, addTree, addTreeRecursive, operator="]}
{"id": "C28", "title": "Rejected tree additions have no effect", "statement": "addSegment returns false exactly when the hook name is missing or the segment name already exists, and then the tree is unchanged; otherwise it returns true, the new segment hangs below the hook and every old element keeps its segment, joint number and parent. addChain is not atomic on failure (refuted).", "quantifier": "all trees, segments, hook names", "why_tests_cant": "Quantifies over all tree states.", "anchors": ["orocos_kdl/src/tree.cpp: addSegment, addChain"]}
{"id": "C29", "title": "Copying a tree preserves its joint numbering", "statement": "A copy has the same segments with the same parents, the same root and the same number of joints and segments. The joint numbers are not preserved when segments were not added in depth-first order (refuted), so solvers that store a copy index joints differently from the user's tree.", "quantifier": "all trees reachable by the API", "why_tests_cant": "Needs an unbounded search over construction orders.", "anchors": ["orocos_kdl/src/tree.cpp: Tree(const Tree&), operator=, addTreeRecursive", "orocos_kdl/src/treefksolverpos_recursive.hpp: tree", "orocos_kdl/src/treejnttojacsolver.hpp: tree"]}
{"id": "C30", "title": "Chains extracted from a tree compute relative poses", "statement": "getChain(root,tip) succeeds exactly when both segments exist and yields a chain whose forward kinematics, with joint values taken from the tree's joint numbering along the path, equals pose(root)^-1 * pose(tip) in the tree, for every pair of segments including paths that go up and then down, when all joint scales are 1. With another scale the reversed part is wrong (refuted).", "quantifier": "all reachable trees, all pairs of segments, all joint positions", "why_tests_cant": "Quantifies over tree shape and path shape.", "anchors": ["orocos_kdl/src/tree.cpp: getChain"]}
{"id": "C31", "title": "Tree forward kinematics composes along the path from the root", "statement": "TreeFkSolverPos JntToCart returns -1 exactly for a wrong array size, -2 exactly for an unknown segment, otherwise the product of segment poses from root to the segment, each joint read at its own joint number.", "quantifier": "all reachable trees, names and joint arrays", "why_tests_cant": "Quantifies over tree shape.", "anchors": ["orocos_kdl/src/treefksolverpos_recursive.cpp: JntToCart, recursiveFk"]}
{"id": "C32", "title": "Tree Jacobian", "statement": "TreeJntToJac's Jacobian times qdot equals the velocity twist of the segment computed by the tree forward kinematics derivative, columns of joints not on the path being zero.", "quantifier": "all reachable trees, segments, joint positions and velocities", "why_tests_cant": "Quantifies over tree shape.", "anchors": ["orocos_kdl/src/treejnttojacsolver.cpp: JntToJac"]}
{"id": "C33", "title": "LDL solver solves the linear system", "statement": "For every symmetric n x n matrix whose pivots computed by the algorithm are all non-zero (in particular every positive-definite matrix), ldl_solver_eigen returns 0 and q with A q = v, L unit lower triangular, and A = L D L^T; mismatched sizes return the size error.", "quantifier": "all n, all symmetric matrices with nonzero pivots, all right-hand sides", "why_tests_cant": "Unbounded n.", "anchors": ["orocos_kdl/src/utilities/ldl_solver_eigen.cpp: ldl_solver_eigen"]}
{"id": "C34", "title": "Rigid-body inertia algebra", "statement": "Transforming an inertia by a frame, rotation or reference point keeps kinetic energy: (F*I)(F*t) = F*(I*t); inertias add as the bodies are merged; the product of an inertia with a twist is its momentum and dot(a, I b) = dot(b, I a); an inertia built from non-negative mass and a physically valid rotational inertia is positive semidefinite.", "quantifier": "all inertias, frames, twists", "why_tests_cant": "Identities over all reals.", "anchors": ["orocos_kdl/src/rigidbodyinertia.cpp", "orocos_kdl/src/rotationalinertia.cpp", "orocos_kdl/src/articulatedbodyinertia.cpp"]}
{"id": "C35", "title": "Inverse dynamics is affine in accelerations with the mass matrix as slope", "statement": "For every chain and state, RNE torques = JntToMass(q)*qddot + JntToCoriolis(q,qdot) + JntToGravity(q) - J^T f_ext (f_ext expressed in segment frames), with RNE(q,qdot,0) splitting exactly into Coriolis plus gravity plus external part.", "quantifier": "all chains, joint positions, velocities, accelerations, external wrenches", "why_tests_cant": "Quantifies over chain length; sum over recursion.", "anchors": ["orocos_kdl/src/chainidsolver_recursive_newton_euler.cpp: CartToJnt", "orocos_kdl/src/chaindynparam.cpp: JntToMass, JntToCoriolis, JntToGravity"]}
{"id": "C36", "title": "The joint-space mass matrix is symmetric and positive semidefinite", "statement": "JntToMass returns a symmetric matrix and qdot^T H qdot equals the sum of twice the kinetic energies of all segments plus the joint inertia terms, hence is non-negative for physical inertias. If every joint that can move has inertia in its own link or rotor, the matrix is positive definite.", "quantifier": "all chains, joint positions, velocities", "why_tests_cant": "Quantifies over chain length.", "anchors": ["orocos_kdl/src/chaindynparam.cpp: JntToMass"]}
{"id": "C37", "title": "Forward and inverse dynamics are inverse", "statement": "When the mass matrix has non-zero pivots, forward dynamics followed by inverse dynamics reproduces the torques and inverse followed by forward reproduces the accelerations. For arms whose joints all carry mass this holds in every state, with no condition on the mass matrix.", "quantifier": "all chains, states, torques, accelerations", "why_tests_cant": "Quantifies over chain length.", "anchors": ["orocos_kdl/src/chainfdsolver_recursive_newton_euler.cpp: CartToJnt", "orocos_kdl/src/chainidsolver_recursive_newton_euler.cpp", "orocos_kdl/src/utilities/ldl_solver_eigen.cpp"]}
{"id": "C38", "title": "Tree inverse dynamics agrees with chain inverse dynamics on serial trees", "statement": "For a tree consisting of one branch, the tree RNE solver's torques equal the chain RNE solver's torques for the extracted chain; for any tree with missing external wrenches the missing ones count as zero.", "quantifier": "all serial trees, states, accelerations", "why_tests_cant": "Quantifies over chain length.", "anchors": ["orocos_kdl/src/treeidsolver_recursive_newton_euler.cpp: CartToJnt, rne_step"]}
{"id": "C39", "title": "Gravity torques are the gradient of potential energy", "statement": "JntToGravity(q)_j equals minus the partial derivative with respect to q_j of the sum over segments of mass times gravity dot centre of mass position.", "quantifier": "all chains and joint positions", "why_tests_cant": "Derivative statement for all chains.", "anchors": ["orocos_kdl/src/chaindynparam.cpp: JntToGravity"]}
{"id": "C40", "title": "Trapezoidal profile reaches its goal within the limits", "statement": "SetProfile(p1,p2) with positive limits gives Pos(0)=p1, Pos(Duration())=p2, constant outside [0,Duration()], |Vel|<=maxvel and |Acc|<=maxacc at all times, Vel the derivative of Pos, Pos continuous, and Pos always between p1 and p2.", "quantifier": "all p1,p2, all positive limits, all times", "why_tests_cant": "Quantifies over reals, including triangular case and reverse moves.", "anchors": ["orocos_kdl/src/velocityprofile_trap.cpp: SetProfile, Pos, Vel, Acc"]}
{"id": "C41", "title": "Requested duration of a trapezoidal profile is honoured when feasible", "statement": "SetProfileDuration(p1,p2,T) with T at least the minimal duration gives Duration()=T and the same boundary conditions and limits; a shorter T gives the minimal profile; SetProfileVelocity(v) scales the minimal profile with the factor clamped.", "quantifier": "all p1,p2,T, all positive limits", "why_tests_cant": "Quantifies over reals.", "anchors": ["orocos_kdl/src/velocityprofile_trap.cpp: SetProfileDuration, SetProfileVelocity"]}
{"id": "C42", "title": "Half-trapezoidal and rectangular profiles", "statement": "VelocityProfile_TrapHalf starts or ends at rest as requested, reaches its goal and keeps the velocity and acceleration limits after SetProfile; with SetProfileDuration the acceleration limit can be exceeded (refuted). VelocityProfile_Rectangular reaches its goal and keeps |Vel|<=maxvel (refuted for reverse moves if the code fails to).", "quantifier": "all p1,p2, limits, durations, times", "why_tests_cant": "Quantifies over reals.", "anchors": ["orocos_kdl/src/velocityprofile_traphalf.cpp", "orocos_kdl/src/velocityprofile_rect.cpp"]}
{"id": "C43", "title": "Spline profiles meet their boundary conditions", "statement": "SetProfileDuration of the linear, cubic and quintic spline profiles gives Pos(0), Pos(T) (and Vel, Acc where given) equal to the requested boundary values; Vel and Acc are the first and second derivatives of Pos.", "quantifier": "all boundary values and T>0", "why_tests_cant": "Quantifies over reals.", "anchors": ["orocos_kdl/src/velocityprofile_spline.cpp: SetProfileDuration, Pos, Vel, Acc"]}
{"id": "C44", "title": "Geometric paths run from start to end with Vel their derivative", "statement": "Path_Line and Path_Circle satisfy Pos(0)=start, Pos(PathLength())=end, Vel(s,sd) is the time derivative of Pos(s(t)), LengthToS inverts the arc-length scaling. Path_Circle::Clone does not denote the same path (refuted).", "quantifier": "all start/end frames, radii, angles, eqradius, parameters s", "why_tests_cant": "Derivative statements over reals.", "anchors": ["orocos_kdl/src/path_line.cpp", "orocos_kdl/src/path_circle.cpp", "orocos_kdl/src/rotational_interpolation_sa.cpp"]}
{"id": "C45", "title": "Composite and cyclic paths", "statement": "Path_Composite's length is the sum of its parts; for any history of queries, Pos(s) lies on the component that covers s at the right local parameter, so results do not depend on the query history except at knots; Path_Cyclic_Closed is periodic with the length of the underlying path.", "quantifier": "all lists of components, all query histories", "why_tests_cant": "Unbounded histories with a lookup cache.", "anchors": ["orocos_kdl/src/path_composite.cpp: Lookup, Pos", "orocos_kdl/src/path_cyclic_closed.cpp"]}
{"id": "C46", "title": "Trajectories follow path and profile", "statement": "Trajectory_Segment's Vel and Acc are the first and second time derivative of Pos when the profile's are; Trajectory_Composite's duration is the sum of durations and Pos(t) switches segment exactly at the cumulative durations, clamping outside.", "quantifier": "all paths, profiles, lists of segments, times", "why_tests_cant": "Derivative and unbounded list statements.", "anchors": ["orocos_kdl/src/trajectory_segment.cpp", "orocos_kdl/src/trajectory_composite.cpp"]}
{"id": "C47", "title": "Position IK with joint limits returns a solution it has checked", "statement": "ChainIkSolverPos_NR_JL returning E_NOERROR implies the FK of q_out is within eps of the target; if at least one iteration moved the joints then q_out respects the limits; it never performs more than maxiter velocity-IK calls. The constructor without limits forbids negative joint values (refuted 'no limits').", "quantifier": "all FK/IK-velocity solver behaviours, all starts, targets, limits, maxiter", "why_tests_cant": "Quantifies over arbitrary inner solver behaviour and iteration counts.", "anchors": ["orocos_kdl/src/chainiksolverpos_nr_jl.cpp: CartToJnt, constructors"]}
{"id": "C48", "title": "Newton-Raphson and Levenberg-Marquardt IK termination and soundness", "statement": "ChainIkSolverPos_NR stops after at most maxiter iterations; a success code means the pose before the last Newton step was within eps. ChainIkSolverPos_LMA returning success implies the weighted error of q_out is below its eps and the error never increases from the initial guess.", "quantifier": "all inner solver behaviours, starts, targets, maxiter", "why_tests_cant": "Quantifies over arbitrary inner solver behaviour.", "anchors": ["orocos_kdl/src/chainiksolverpos_nr.cpp: CartToJnt", "orocos_kdl/src/chainiksolverpos_lma.cpp: CartToJnt"]}
{"id": "C49", "title": "Online tree IK enforces joint velocity and position limits", "statement": "TreeIkSolverPos_Online's joint velocities never exceed the limits and q_out never leaves the joint position limits; its Cartesian velocity limiting bounds both translation and rotation speed (refuted: it can scale up and can do nothing).", "quantifier": "all joint arrays, limits and twists", "why_tests_cant": "Quantifies over reals and number of joints.", "anchors": ["orocos_kdl/src/treeiksolverpos_online.cpp: enforceJointVelLimits, enforceCartVelLimits, CartToJnt"]}
{"id": "C50", "title": "Automatic differentiation scalars", "statement": "Every arithmetic operator and elementary function on Rall1d and Rall2d applied to numbers carrying value and derivatives of differentiable functions returns the value and derivatives of the composed function. Rall2d's operator*= breaks this (refuted).", "quantifier": "all differentiable functions and points in the domain", "why_tests_cant": "Derivative statements over all functions.", "anchors": ["orocos_kdl/src/utilities/rall1d.h", "orocos_kdl/src/utilities/rall2d.h"]}
{"id": "C51", "title": "Velocity and acceleration frames obey the product rule", "statement": "VectorVel, RotationVel, FrameVel, TwistVel operations (and the Acc versions) return the value and derivative(s) of the corresponding operation on moving objects. RotationVel::RotY returns a rotation about X (refuted).", "quantifier": "all differentiable motions", "why_tests_cant": "Derivative statements over all motions.", "anchors": ["orocos_kdl/src/framevel.inl", "orocos_kdl/src/frameacc.inl"]}
{"id": "C52", "title": "Joint arrays behave as vectors", "statement": "Add/Subtract/Multiply/Divide on JntArray are the pointwise operations also when the destination aliases an operand, Equal is pointwise approximate equality and false for different sizes; resize keeps the old values instead of zeroing as documented (refuted). For JntArrayVel the derivative-aware Multiply/Divide are wrong when source and destination alias (refuted).", "quantifier": "all sizes, values and aliasing patterns", "why_tests_cant": "Quantifies over sizes and aliasing.", "anchors": ["orocos_kdl/src/jntarray.cpp", "orocos_kdl/src/jntarrayvel.cpp", "orocos_kdl/src/jntarrayacc.cpp"]}
{"id": "C53", "title": "Pseudo-inverse velocity IK gives least squares minimum norm solutions", "statement": "Given a correct SVD, ChainIkSolverVel_pinv returns the joint velocity that minimises |J qdot - v| and has minimal norm among minimisers when all singular values are zero or at least eps; wdls with lambda 0 and identity weights coincides; with lambda it minimises the damped objective. Singularity is not reported for chains with fewer than six joints (refuted).", "quantifier": "all Jacobians with SVD, all twists", "why_tests_cant": "Quantifies over dimensions and reals.", "anchors": ["orocos_kdl/src/chainiksolvervel_pinv.cpp: CartToJnt", "orocos_kdl/src/chainiksolvervel_wdls.cpp: CartToJnt"]}
{"id": "C54", "title": "SVD failure is reported", "statement": "svd_eigen_HH and SVD_HH return a negative code exactly when the iteration limit is exceeded. The check looks only at the last singular value, so non-convergence is never reported for limits above 1 (refuted).", "quantifier": "all matrices and iteration limits", "why_tests_cant": "Would require a matrix that fails to converge.", "anchors": ["orocos_kdl/src/utilities/svd_eigen_HH.cpp", "orocos_kdl/src/utilities/svd_HH.cpp"]}
{"id": "C55", "title": "Text output of frames can be read back", "statement": "Writing a Vector, Rotation, Twist, Wrench, Frame or Vector2 with 17 or more significant digits and reading it back gives the same value and takes exactly the text written; with fewer digits (the default is 6) every number comes back as the double nearest to its decimal rounding, and not always the same (refuted). A reader that returns has read a text of the documented form and stores what that text denotes, so malformed input never gives a wrong value; it raises an exception, except that an overlong word or a text that stops early overruns a buffer (refuted). Reading a Rotation2 changes its argument (refuted).", "quantifier": "all values, all precisions, all input texts, all stream positions and all previous contents of the argument", "why_tests_cant": "Quantifies over all texts and all doubles; tests can only try some of them.", "anchors": ["orocos_kdl/src/frames_io.cpp", "orocos_kdl/src/utilities/utility_io.cxx"]}
{"id": "C56", "title": "A joint moves about its own axis", "statement": "Joint::pose(q) rotates by scale*q+offset about JointAxis() (then moves to JointOrigin()) for revolute joints and translates by scale*q+offset along JointAxis() for prismatic ones; general-axis constructors normalise the axis; constructing a cardinal joint with a general-axis constructor or vice versa throws.", "quantifier": "all joint types, scales, offsets, axes with max component at least the global tolerance, joint positions", "why_tests_cant": "Quantifies over reals and axes.", "anchors": ["orocos_kdl/src/joint.cpp: Joint::Joint, Joint::pose, JointAxis, JointOrigin"]}
{"id": "C57", "title": "Merging trees and taking subtrees is exact", "statement": "addTree succeeds exactly when the hook exists (or the added tree is empty) and no added name is already present; on success every segment of the added tree appears with the same segment, children and parent (the added root replaced by the hook) and its joints are numbered after the existing ones in depth-first order, and existing segments keep their data. getSubTree succeeds exactly when the name exists and returns exactly the descendants of the named segment, numbered depth first; on failure the output is unchanged.", "quantifier": "all trees reachable by any sequence of operations, all hooks and names", "why_tests_cant": "Quantifies over all tree shapes and histories.", "anchors": ["orocos_kdl/src/tree.cpp: Tree::addTree, Tree::addTreeRecursive, Tree::getSubTree"]}
{"id": "C58", "title": "Inverse dynamics torques satisfy the energy balance", "statement": "Along every twice differentiable joint motion, the time derivative of kinetic plus potential energy of the chain (link energies from the kinematics solvers, plus joint rotor energies) equals the power of the torques returned by the RNE inverse dynamics solver plus the power of the external wrenches.", "quantifier": "all chains, joint motions, external wrenches, gravity vectors and solver histories", "why_tests_cant": "A derivative identity over all chains and motions.", "anchors": ["orocos_kdl/src/chainidsolver_recursive_newton_euler.cpp: CartToJnt", "orocos_kdl/src/segment.cpp: pose, twist"]}
{"id": "C59", "title": "RK4Integrator is the classical fourth-order Runge-Kutta step", "statement": "One call of ChainFdSolver_RNE::RK4Integrator advances positions and velocities by the classical RK4 step of the forward dynamics. True for the velocities; refuted for the positions, which are combined with weights 1,0,2,3 instead of 1,2,2,1 (a constant acceleration a moves a joint by 2/3 a dt^2 instead of 1/2 a dt^2).", "quantifier": "all states, step sizes and acceleration functions", "why_tests_cant": "Quantifies over all dynamics and states; the error is of second order and small for short steps.", "anchors": ["orocos_kdl/src/chainfdsolver_recursive_newton_euler.cpp: RK4Integrator"]}
{"id": "C60", "title": "The trapezoidal profile is time-optimal", "statement": "No motion from p1 to p2 that starts and ends at rest and respects the velocity and acceleration limits takes less time than Duration() after SetProfile(p1,p2); the planned motion is itself such a motion.", "quantifier": "all p1,p2, all positive limits, all competing motions", "why_tests_cant": "Quantifies over all competing functions of time.", "anchors": ["orocos_kdl/src/velocityprofile_trap.cpp: SetProfile"]}
{"id": "C61", "title": "A cloned velocity profile describes the same motion", "statement": "Clone() of a planned trapezoidal (between distinct positions), rectangular, impulse or spline profile returns an object answering every Duration/Pos/Vel/Acc call like the original. For the half-trapezoidal profile this is refuted; for a trapezoidal profile with equal end positions the clone is not a number.", "quantifier": "all planned profiles, all times", "why_tests_cant": "Quantifies over all planning inputs and times.", "anchors": ["orocos_kdl/src/velocityprofile_trap.cpp: Clone", "orocos_kdl/src/velocityprofile_traphalf.cpp: Clone", "orocos_kdl/src/velocityprofile_rect.hpp: Clone", "orocos_kdl/src/velocityprofile_dirac.hpp: Clone", "orocos_kdl/src/velocityprofile_spline.cpp: Clone"]}
{"id": "C62", "title": "Rounded polylines are continuous, tangent arcs", "statement": "Path_RoundedComposite: each accepted Add replaces the corner by an arc of the given radius that starts on the first leg and ends on the second one at distance radius*tan(alpha/2) from the corner, with tangents along the legs; the finished path through any number of points is connected, starts at the first and ends at the last point. A rejected Add leaves the path unchanged (refuted); legs of a few millimetres give a disconnected arc (refuted); finishing after one point adds a line to the base frame (refuted).", "quantifier": "all lists of way points, radii and orientations", "why_tests_cant": "Geometry over reals for unboundedly many way points.", "anchors": ["orocos_kdl/src/path_roundedcomposite.cpp: Add, Finish"]}
{"id": "C63", "title": "Constructors and setters configure what they say", "statement": "A freshly constructed ChainIkSolverPos_NR_JL, ChainIkSolverPos_LMA or VelocityProfile_Trap holds the arguments given and the documented defaults (no limits = smallest positive normal double to largest double; LMA weights 1 for translation and 0.01 for rotation; an unplanned trapezoid rests at 0 forever). setJointLimits stores both limits when both sizes fit and otherwise returns E_SIZE_MISMATCH and leaves the limits unchanged; updateInternalDataStructures keeps the limits of the joints that remain. A half-trapezoidal profile asked for a zero duration plans the fastest motion.", "quantifier": "all chains, limits, tolerances, positions", "why_tests_cant": "Holds for every argument, including arrays of any size.", "anchors": ["orocos_kdl/src/chainiksolverpos_nr_jl.cpp: setJointLimits, constructors", "orocos_kdl/src/chainiksolverpos_lma.cpp: constructors", "orocos_kdl/src/velocityprofile_trap.cpp: constructor", "orocos_kdl/src/velocityprofile_traphalf.cpp: SetProfileDuration"]}
{"id": "C64", "title": "A returned singular value decomposition is correct", "statement": "When svd_eigen_HH or SVD_HH finishes every column within the iteration limit and the matrix has Frobenius norm below two, U diag(S) V^T equals the given matrix up to a few roundings per iteration, V has orthonormal columns, so have the columns of U that belong to singular values that are not negligible, the singular values are not negative, and svd_eigen_HH returns them in descending order. Without the norm bound this is false: a diagonal value of -2 during the iteration is taken for zero (misplaced parenthesis in the second convergence test), and the routine returns wrong singular values with code 0 (refuted).", "quantifier": "all matrices of any size, iteration limits, initial contents of the output arrays, small enough epsilon, and all rounding functions with a given accuracy near 0, 1 and -1", "why_tests_cant": "The tests check a few matrices with singular values that never come near the special value; the claim is for every matrix.", "anchors": ["orocos_kdl/src/utilities/svd_eigen_HH.cpp:svd_eigen_HH", "orocos_kdl/src/utilities/svd_HH.cpp:SVD_HH::calculate"]}
{"id": "C65", "title": "Hybrid dynamics with acceleration constraints solves the constrained equations of motion", "statement": "When ChainHdSolver_Vereshchagin::CartToJnt returns 0, the joint accelerations are the one solution of the equations of motion (inverse dynamics gives back the feed-forward torques) with the given external wrenches in base coordinates and, on the tip, minus the constraint directions times the magnitudes reported by getContraintForceMagnitude. The tip acceleration reported by getTransformedLinkAcceleration satisfies every constraint if the arm can act on all of them, and otherwise violates them as little as constraint forces can reach; among the accelerations with the same components along the constraints the result is the nearest to the free motion in the kinetic energy metric (Gauss' principle). With all constraint directions zero the result is that of the forward dynamics solver. The reported link accelerations are the derivatives of the link twists plus the root acceleration, the total torque of a joint is the inertia felt at it times its acceleration, the constraint torque is the torque with which the constraint wrench loads the joint while the joints before it stand still. The call returns for every arm with mass and no fixed joint, whatever the object's past, and the result does not depend on that past. Documented but false: constraint_torque is not the joint command that produces the computed motion, and alpha*nu is minus the force on the end effector (refuted). A fixed joint or a stale joint count is undefined behaviour.", "quantifier": "all chains, states, torques, wrenches, constraint directions and set points, all numbers of constraints and all histories of constructions, chain edits, updates and calls", "why_tests_cant": "Tests compare a few configurations with other solvers or with recorded numbers; the claim is about every chain, configuration and constraint set and about all earlier calls on the object.", "anchors": ["orocos_kdl/src/chainhdsolver_vereshchagin.cpp:ChainHdSolver_Vereshchagin::CartToJnt", "orocos_kdl/src/chainhdsolver_vereshchagin.cpp:initial_upwards_sweep", "orocos_kdl/src/chainhdsolver_vereshchagin.cpp:downwards_sweep", "orocos_kdl/src/chainhdsolver_vereshchagin.cpp:constraint_calculation", "orocos_kdl/src/chainhdsolver_vereshchagin.cpp:final_upwards_sweep", "orocos_kdl/src/chainhdsolver_vereshchagin.cpp:getTotalTorque"]}
{"id": "C66", "title": "The external wrench estimator is an observer that finds the load", "statement": "Through every history of ChainExternalWrenchEstimator calls (samples, setInitialMomentum, setters, updates) the torques of getEstimatedJntTorque are those of one first-order observer with low-pass filter per joint, whose input is the external torque that explains the change of joint velocities between two samples. For every filter constant in (-1,1) and gain K with 0 < K dt and K dt (1-f) < 2 (1+f) the estimate approaches a constant external torque at a geometric rate after any history; with K dt >= 2 and no filter it never gets closer than the start. The wrench of JntToExtWrench is the shortest least squares solution of J^T w = torque in the axes of the tip, up to singular values below eps; its error is at most the error of the torques divided by eps, so a constant load on an arm held still is found at a geometric rate. Return codes: E_NOT_UP_TO_DATE, E_SIZE_MISMATCH, E_SVD_FAILED leave the wrench alone. Documented but false: setInitialMomentum called before the first sample of a moving arm makes the estimate wrong (refuted); after a change of the joint count and updateInternalDataStructures the next call reads values that were never written.", "quantifier": "all chains, gravities, gains, filter constants, sample frequencies, states, torques and loads, all histories of calls and chain edits, all singular value routines", "why_tests_cant": "Tests simulate one arm with one load and check a tolerance after some seconds; convergence, its rate and its limits are statements about all gains and infinitely many steps, and the state of the object depends on all earlier calls.", "anchors": ["orocos_kdl/src/chainexternalwrenchestimator.cpp:JntToExtWrench", "orocos_kdl/src/chainexternalwrenchestimator.cpp:setInitialMomentum", "orocos_kdl/src/chainexternalwrenchestimator.cpp:updateInternalDataStructures", "orocos_kdl/src/chainexternalwrenchestimator.cpp:getEstimatedJntTorque"]}
{"id": "C67", "title": "The velocity solver with plane rotations is accurate where it returns, and where it does not return", "statement": "ChainIkSolverVel_pinv_givens::CartToJnt, through every history of calls on an object used with one chain. When the Jacobian has full rank and the columns (or rows, in every other call) that the call starts from are not yet orthogonal, the sweeps end and the result is least squares: for up to six joints the misfit of a column call exceeds the best possible one by at most 1e-13 |v|^2; for six joints (row calls) and for more than six joints the misfit is at most 1e-13 times the condition number times |v|^2, and with more than six joints the result lies in the row space of the Jacobian. The first call on a new object solves the leading square block of the Jacobian with the same accuracy, and joints after the sixth stand still. Wrong sizes give E_SIZE_MISMATCH / E_NOT_UP_TO_DATE and change neither the result nor the factors. False although a user would rely on it: (a) at a singular configuration the call never returns, and a planar arm of three to six joints never returns from its first call; (b) a new object with an orthogonal start (a gantry at home, every one-joint chain) reads uninitialised singular values; (c) if the start is orthogonal the answer does not depend on the configuration: after turning the base by pi the computed velocity moves the tip exactly the opposite way; (d) the first call with fewer than six joints is not least squares.", "quantifier": "all chains with valid joints, all joint positions and desired velocities, all states reached by calls and updates with one chain, every number of sweeps", "why_tests_cant": "The factors carry over from call to call, so the answer depends on the whole history; termination for every regular Jacobian and non-termination for every singular one are statements about unbounded loops.", "anchors": ["orocos_kdl/src/chainiksolvervel_pinv_givens.cpp:CartToJnt", "orocos_kdl/src/chainiksolvervel_pinv_givens.cpp:updateInternalDataStructures", "orocos_kdl/src/utilities/svd_eigen_Macie.cpp:svd_eigen_Macie"]}
{"id": "C68", "title": "Paths, velocity profiles and trajectories written as text can be read back, or are refused", "statement": "Path::Read, VelocityProfile::Read and Trajectory::Read accept every text of the documented shapes (with any layout the readers allow) and build the object described; whatever they accept is a text of such a shape, all others end in an exception, and the readers always finish. The text that Write produces for a point, line, composite or cyclic path, a profile or a trajectory segment over them is accepted and describes the numbers written, rounded as the stream's precision says, and a line path whose numbers survive gives back the same path. Paths and trajectories without a reader are refused. Refuted: a circle does not come back as the same circle and may not come back at all; the motion of a profile is not in the text; cut-off texts and long keywords are read as defined errors; the stream is left good after a profile.", "quantifier": "every text, every nesting of path descriptions, every object built from them, every output precision", "why_tests_cant": "The texts and the nestings are unbounded and the readers' error paths depend on where the text stops.", "anchors": ["orocos_kdl/src/path.cpp:Path::Read", "orocos_kdl/src/rotational_interpolation.cpp:RotationalInterpolation::Read", "orocos_kdl/src/velocityprofile.cpp:VelocityProfile::Read", "orocos_kdl/src/trajectory.cpp:Trajectory::Read", "orocos_kdl/src/path_circle.cpp:Path_Circle::Write", "orocos_kdl/src/path_line.cpp:Path_Line::Write", "orocos_kdl/src/path_composite.cpp:Path_Composite::Write", "orocos_kdl/src/trajectory_segment.cpp:Trajectory_Segment::Write", "orocos_kdl/src/velocityprofile_trap.cpp:VelocityProfile_Trap::Write"]}
{"id": "C69", "title": "The pseudo-inverse velocity solver gives the wanted twist, with the decomposition it computes itself", "statement": "When ChainIkSolverVel_pinv reports no error for a chain of at least six joints and its singular value routine finished every column within the limit, the joint velocity it returns moves the tip with the wanted twist up to a relative error that follows from eps, the iteration limit and the rounding of the convergence tests (below 1e-6 for doubles, the default parameters and at most ten joints), and it is no longer than any joint velocity that gives the twist exactly, up to the same error. This is false when the second convergence test takes a value of -2 for zero: for a slide with transmission ratio two that carries a hinge, the solver reports no error and drives the tip the opposite way while turning it (refuted).", "quantifier": "all chains, joint positions, twists, buffer contents, iteration limits, thresholds, and all rounding functions with a given accuracy near 0, 1 and -1", "why_tests_cant": "The tests compare a few configurations with the wanted twist; the claim is for every chain and position, and the failing ones are isolated.", "anchors": ["orocos_kdl/src/chainiksolvervel_pinv.cpp:ChainIkSolverVel_pinv::CartToJnt", "orocos_kdl/src/utilities/svd_HH.cpp:SVD_HH::calculate"]}
{"id": "C70", "title": "The iterative position solvers converge from every start near a regular position", "statement": "Around every joint position where the Jacobian of the chain has full row rank there is a neighbourhood such that ChainIkSolverPos_NR and (if the position is inside the joint limits) ChainIkSolverPos_NR_JL, started anywhere in it with any rigid target pose close to the pose there, return E_NOERROR, with joint values near that position whose pose is within eps of the target, provided maxiter is at least (m+1)^2 where beta^m eps >= 1. This holds for every inner velocity solver whose answer produces the requested twist up to a small relative error and is bounded by a multiple of it, and in particular for the library's own forward solver and pseudo-inverse solver with a correct singular value decomposition, and for its weighted damped least-squares solver (any damping, any joint weight, a symmetric nonsingular task weight) where the weighted Jacobian has full row rank. ChainIkSolverPos_LMA with six nonzero weights also succeeds there, its weighted error shrinking by a fixed factor in every step, if eps is not below a multiple of the library's epsilon and the threshold on joint increments is small against eps.", "quantifier": "all chains, all regular joint positions, all starts and targets in the neighbourhood, all eps up to 1/2, all velocity solvers of the stated accuracy", "why_tests_cant": "Tests run the solvers on random poses and count failures; that a whole neighbourhood of every regular position converges within a stated number of iterations is a statement about infinitely many starts and targets.", "anchors": ["orocos_kdl/src/chainiksolverpos_nr.cpp:ChainIkSolverPos_NR::CartToJnt", "orocos_kdl/src/chainiksolverpos_nr_jl.cpp:ChainIkSolverPos_NR_JL::CartToJnt", "orocos_kdl/src/chainiksolvervel_pinv.cpp:ChainIkSolverVel_pinv::CartToJnt", "orocos_kdl/src/chainfksolverpos_recursive.cpp:ChainFkSolverPos_recursive::JntToCart", "orocos_kdl/src/chainiksolverpos_lma.cpp:ChainIkSolverPos_LMA::CartToJnt", "orocos_kdl/src/chainiksolvervel_wdls.cpp:ChainIkSolverVel_wdls::CartToJnt"]}
{"id": "C71", "title": "Forward kinematics in floating point stays within a stated distance of the exact pose", "statement": "When every addition, multiplication and subtraction rounds its result, sin and cos are computed up to a small error and the chain's data are themselves rounded, ChainFkSolverPos_recursive::JntToCart still returns E_NOERROR exactly when it would in exact arithmetic, and the pose it gives differs from the exact pose of the ideal chain by at most 220*n*eps*A in each entry of the orientation and 1850*n^2*eps*A*D in position, for n segments with joint travels bounded by A and lengths bounded by D. For IEEE doubles, up to 20 segments, 10 rad and 2 m this is 1e-11 and 1e-8. The computed orientation is however never exactly a rotation matrix unless the angles are those of right angles.", "quantifier": "all chains, all joint values and segment numbers, all rounding functions and all sin/cos implementations of the stated accuracy", "why_tests_cant": "Tests compare a few poses with a tolerance; the accumulated rounding error has to be bounded for every chain and every position, and the exact pose is not available to a test.", "anchors": ["orocos_kdl/src/chainfksolverpos_recursive.cpp:ChainFkSolverPos_recursive::JntToCart", "orocos_kdl/src/segment.cpp:Segment::pose", "orocos_kdl/src/joint.cpp:Joint::pose", "orocos_kdl/src/frames.cpp:Rotation::Rot2", "orocos_kdl/src/frames.inl:operator*"]}
{"id": "C72", "title": "Joint space inertia matrices: arithmetic is entry by entry, also in place, except for the product with a joint array", "statement": "Add, Subtract, Multiply and Divide by a number, assignment and SetToZero of JntSpaceInertiaMatrix give in every entry the corresponding operation on the entries, also when the destination is an operand, and change nothing else; different sizes are undefined behaviour; Equal compares every entry. Multiply(M, q, dest) gives the matrix-vector product when dest is another array; with dest the same array as q it does not. resize gives a matrix of the new size whose entries are not determined.", "quantifier": "all matrices of all sizes, all choices of destination, all joint arrays", "why_tests_cant": "Tests use one size and separate destinations; aliasing, sizes and every entry have to be covered.", "anchors": ["orocos_kdl/src/jntspaceinertiamatrix.cpp:Add", "orocos_kdl/src/jntspaceinertiamatrix.cpp:Multiply", "orocos_kdl/src/jntspaceinertiamatrix.cpp:Equal", "orocos_kdl/src/jntspaceinertiamatrix.cpp:JntSpaceInertiaMatrix::resize"]}
{"id": "C73", "title": "A diagonal stiffness maps twists to wrenches and back", "statement": "For a Stiffness with no zero entry, Inverse undoes the product with a twist and the product undoes Inverse; the product is linear in the twist and additive in the stiffness; a stiffness without negative entries does non-negative work on every displacement, and zero work on none but the zero displacement if all entries are positive. random gives every entry between 0.001 and 0.991 whatever rand() returns, so a random stiffness is invertible.", "quantifier": "all stiffnesses, twists and wrenches, all results of rand()", "why_tests_cant": "The laws are algebraic identities over all values, and the range of the random entries must hold for every result of rand().", "anchors": ["orocos_kdl/src/stiffness.hpp:Stiffness", "orocos_kdl/src/stiffness.hpp:operator *", "orocos_kdl/src/utilities/utility.h:posrandom"]}
{"id": "C74", "title": "The I/O error trace is a stack and is copied out without overrunning the buffer", "statement": "Any properly nested sequence of IOTrace and IOTracePop leaves the trace as it was; IOTracePop on an empty trace is undefined. IOTracePopStr(buffer,size) removes the newest entry and leaves in the buffer a C string of its first size-1 characters, touching nothing past size characters; with an empty trace it leaves the empty string, with size <= 0 it does nothing; it writes all size characters even for a short entry, so a buffer smaller than size is overrun. IOTraceOutput writes the entries newest first, one per line, and empties the trace.", "quantifier": "all histories of calls, all descriptions, buffers and sizes", "why_tests_cant": "No test exercises nesting depths, sizes and buffer contents in general; overruns and undefined pops do not show in a passing test.", "anchors": ["orocos_kdl/src/utilities/error_stack.cxx:IOTrace", "orocos_kdl/src/utilities/error_stack.cxx:IOTracePop", "orocos_kdl/src/utilities/error_stack.cxx:IOTracePopStr", "orocos_kdl/src/utilities/error_stack.cxx:IOTraceOutput"]}
{"id": "C75", "title": "The text of a tree, chain or joint array says what the object is", "statement": "tree2str ends for every tree that can be built and lists every segment exactly once, depth first, each on its own line with its joint number, indented by its distance from the root. Two trees with the same listing have the same segments, parents, children and joint numbers, provided no name contains '(' or starts with the separator and the separator has no '('; without the proviso they may differ. The same holds for operator<< of a Tree when no name contains '(' or a newline. The text of a Joint, Segment or Chain determines names, joint types, axes, origins and tip frames to the precision of the stream (exactly from 17 digits on), provided names contain no ':'; scale and offset are not printed. With at most 6 digits a JntArray, Jacobian or JntSpaceInertiaMatrix of numbers of ordinary size has one cell of 12 characters per number, which determines the numbers to that precision; with 13 digits or more the numbers run together and different arrays print the same. The input operators of all these types leave object and stream unchanged.", "quantifier": "all trees obtainable by API calls, all separators and preambles, all chains, arrays and matrices, all precisions", "why_tests_cant": "Whether two different objects can print the same text, and whether recursion over every tree ends, concerns all pairs of objects and all shapes.", "anchors": ["orocos_kdl/src/kinfam_io.cpp:tree2str", "orocos_kdl/src/kinfam_io.cpp:operator <<", "orocos_kdl/src/kinfam_io.cpp:operator >>", "orocos_kdl/src/joint.hpp:getTypeName"]}
{"id": "C76", "title": "Equal and == compare every member within a tolerance; hashes do not agree with ==", "statement": "Equal(a,b,eps) on every geometric type (3D, 2D, velocity and acceleration types) is true exactly if all corresponding scalar members differ by less than eps, so it is reflexive for eps > 0, symmetric, monotone in eps and satisfies the triangle law; comparing a pose with a moving object is comparing it with the pose at rest. The operator == is Equal with tolerance 1e-6: it is not the literal equality its documentation promises and it is not transitive. std::hash of these types stays in the range of size_t, hash_combine with a fixed seed loses nothing of the new value and every scalar member counts; but objects that compare equal have equal hashes only if std::hash<double> maps all numbers to one value, so the types cannot be used as keys of unordered containers, not even when only proper rotations and rigid frames are stored.", "quantifier": "all objects of all geometric types, all tolerances, all functions std::hash<double>", "why_tests_cant": "The contract between == and the hash concerns all pairs of objects and all library hash functions.", "anchors": ["orocos_kdl/src/frames.inl:Equal", "orocos_kdl/src/frames.inl:operator==", "orocos_kdl/src/framevel.inl:Equal", "orocos_kdl/src/frameacc.inl:Equal", "orocos_kdl/src/utilities/hash_combine.h:hash_combine", "orocos_kdl/src/frames.hpp:std::hash"]}
{"id": "C77", "title": "Element access, homogeneous matrix, Python sequences and pickling", "statement": "In Python, indexing a vector, twist, wrench, rotation, frame, rotational inertia, Jacobian, joint array or joint space inertia matrix reads or writes exactly the addressed member; every index outside the object, negative ones included, raises IndexError, integers that do not fit into an int raise TypeError, and no access is undefined; loops over the one-dimensional objects give all members in order and end. The two-index access of a frame in C++ and Make4x4 give the homogeneous matrix: products, inverses and the action on points are those of matrices. The two-index access of a planar frame is not the matrix of the map. Pickling and unpickling gives an object of the same class with the same members, except that rotations pass through roll, pitch and yaw: the result is always a proper rotation, within 4e-12 of a proper rotation, equal to it unless the pitch is within 1e-12 of, but not at, the singularity, and never equal to a matrix that is not a proper rotation; pickling again changes nothing more. Loading an arbitrary nested state gives an object of the named class or an exception; a state tuple of the wrong size raises.", "quantifier": "all objects, all Python integers as indices, all values written, all nested pickle states", "why_tests_cant": "The indices are unbounded integers and the pickled objects are all matrices; the inexact rotations form a thin band that tests miss.", "anchors": ["python_orocos_kdl/PyKDL/frames.cpp:__getitem__", "python_orocos_kdl/PyKDL/frames.cpp:py::pickle", "python_orocos_kdl/PyKDL/framevel.cpp:py::pickle", "python_orocos_kdl/PyKDL/kinfam.cpp:__getitem__", "python_orocos_kdl/PyKDL/dynamics.cpp:__getitem__", "orocos_kdl/src/frames.inl:operator()", "orocos_kdl/src/frames.cpp:Frame::Make4x4"]}
{"id": "C78", "title": "Ownership of paths, interpolators, velocity profiles and trajectories", "statement": "A program that creates, combines, copies, reads from text, extends and deletes paths and trajectories, hands each pointer over at most once (aggregate = true) and deletes only what it still owns, never touches a deleted object, whatever circle constructors throw and in whatever order arguments are evaluated. Deleting all pointers that it still owns, in any order, is defined; it frees every object ever created if no rounded composite was constructed with eqradius <= 0 and no copy of a trajectory or rounded composite failed, even though other operations threw. Reading a path or trajectory from text that fails at any point frees everything it had created. A clone is a complete deep copy that shares nothing with the original and outlives it. Copying an object that owns another one with the implicit copy constructor and deleting both deletes an object twice. Not freed: the interpolator and composite of a rounded composite with eqradius <= 0, the copied part of a trajectory whose copy fails, and the copies made by Clone for members that are not owned (aggregate = false).", "quantifier": "all histories of operations, all patterns of exceptions, all orders of evaluation, all orders of deletion, all texts", "why_tests_cant": "Tests run fixed programs without failures; leaks and double deletes depend on the history, on which call throws and on nesting of unbounded depth.", "anchors": ["orocos_kdl/src/path_line.cpp:Path_Line::Clone", "orocos_kdl/src/path_circle.cpp:Path_Circle", "orocos_kdl/src/path_composite.cpp:Path_Composite::Clone", "orocos_kdl/src/path_roundedcomposite.cpp:Path_RoundedComposite::Add", "orocos_kdl/src/path_cyclic_closed.cpp:Path_Cyclic_Closed::Clone", "orocos_kdl/src/trajectory_composite.cpp:Trajectory_Composite::Destroy", "orocos_kdl/src/trajectory_segment.cpp:~Trajectory_Segment", "orocos_kdl/src/path.cpp:Path::Read", "orocos_kdl/src/trajectory.cpp:Trajectory::Read"]}
{"id": "C79", "title": "Error of the chain Jacobian in floating-point arithmetic", "statement": "When every operation rounds with relative error eps (absolute for tiny numbers), sin and cos are accurate to eps and the chain's data are stored to eps, ChainJntToJacSolver::JntToJac returns for every chain, joint vector, segment number and set of locked joints a Jacobian whose linear rows differ from those of exact arithmetic by at most 17200 n^2 eps A B D and whose angular rows by at most 510 n eps A B (n segments, joint travel A, lengths D, joint scales B), so each column is that close to the true derivative of the pose. With IEEE doubles, 20 segments, 10 rad and 2 m: 1e-7 and 1e-10. The error code and the number of columns do not depend on rounding.", "quantifier": "all rounding functions with error eps, all chains, joint vectors, segment numbers and locked sets", "why_tests_cant": "Tests compare a few configurations with a loose tolerance; the accumulated error depends on every operation and grows with the chain.", "anchors": ["orocos_kdl/src/chainjnttojacsolver.cpp:ChainJntToJacSolver::JntToJac", "orocos_kdl/src/segment.cpp:Segment::twist", "orocos_kdl/src/joint.cpp:Joint::twist", "orocos_kdl/src/frames.inl:Twist::RefPoint", "orocos_kdl/src/jacobian.cpp:changeRefPoint"]}
{"id": "C80", "title": "The Puma 560 and Kuka LWR chains that ship with the library", "statement": "Puma560() and KukaLWR_DHnew() construct valid chains of 6 and 7 joints. The Puma's forward kinematics gives, at every joint vector, the wrist position and hand orientation of the textbook formulas; its Jacobian loses rank exactly when the hand is in line with the forearm, the wrist is on the vertical axis, or the arm is stretched or folded. On both robots the tip position does not depend on the last three joints. The Puma's inertias are physical: its mass matrix is positive definite at every joint vector, so forward dynamics succeeds in every state and inverts inverse dynamics. Newton-Raphson inverse kinematics on the Puma converges from every start close enough to a position that is not singular. The Kuka's forward kinematics is the product of its seven turns with links of 0.31, 0.4 and 0.39 m, and the distance from shoulder to wrist depends on the elbow only. (Refuted for the Kuka: five links have inertias that no body has, with negative kinetic energy in some motions.)", "quantifier": "all joint vectors, velocities, torques and external wrenches", "why_tests_cant": "The set of singular configurations and positive definiteness are statements about all joint vectors; sampling never hits a singularity.", "anchors": ["orocos_kdl/models/puma560.cpp:Puma560", "orocos_kdl/models/kukaLWR_DHnew.cpp:KukaLWR_DHnew", "orocos_kdl/models/models.hpp"]}
{"id": "C81", "title": "Lifetimes: what solvers and attributes refer to", "statement": "A solver refers to the chain (or tree, or other solver) it was made from, or owns a copy. Solvers on chains answer for the chain as it is now; tree solvers that take the tree by value answer for the tree as it was when they were made, whatever happens to it afterwards. A call is undefined exactly when something the solver uses, directly or through a solver it was given, has lost its last name; programs that keep their names are safe, and nothing but a solver call can be undefined. In Python, an attribute (f.p, f.M, t.vel, ...) is a part of its object and keeps it alive: writing a number through either name changes it under both and changes nothing else, assigning an attribute copies, and a copy shares nothing. (Refuted: that a Python solver keeps alive what it refers to. The bindings do not say keep_alive, so deleting or rebinding the last name of the chain leaves every chain solver with a dangling reference; with keep_alive every program would be safe.)", "quantifier": "all programs: every sequence of creating, copying, changing, renaming and deleting objects, taking attributes and calling solvers", "why_tests_cant": "A dangling reference often still reads the old memory, so a test passes; safety is about every order of deletions.", "anchors": ["orocos_kdl/src/chainfksolverpos_recursive.hpp:chain", "orocos_kdl/src/chainiksolverpos_nr.hpp", "orocos_kdl/src/treefksolverpos_recursive.hpp:tree", "orocos_kdl/src/treeiksolverpos_nr_jl.hpp", "orocos_kdl/src/treeidsolver_recursive_newton_euler.hpp:tree", "python_orocos_kdl/PyKDL/kinfam.cpp", "python_orocos_kdl/PyKDL/dynamics.cpp", "python_orocos_kdl/PyKDL/frames.cpp:def_readwrite", "python_orocos_kdl/PyKDL/framevel.cpp:def_readwrite"]}
{"id": "C82", "title": "Text of velocity and acceleration objects", "statement": "operator<< of VectorVel, RotationVel, FrameVel, TwistVel, of the four acceleration classes and of Rall1d and Rall2d numbers writes the members in order, with every number rounded correctly to the precision of the stream. Equal texts come from objects whose numbers agree to that precision, the end of an object's text is determined whatever follows it, and with 17 digits equal texts mean equal objects. Python's repr of these classes is this text.", "quantifier": "all objects, all stream precisions of at least one digit, all continuations of the text", "why_tests_cant": "That different objects never share a text is a statement about all pairs of objects.", "anchors": ["orocos_kdl/src/framevel_io.hpp:operator<<", "orocos_kdl/src/frameacc_io.hpp:operator<<", "orocos_kdl/src/utilities/rall1d_io.h:operator<<", "orocos_kdl/src/utilities/rall2d_io.h:operator<<", "python_orocos_kdl/PyKDL/framevel.cpp:__repr__"]}
{"id": "C83", "title": "Error of the tip velocity in floating-point arithmetic", "statement": "When every operation rounds with relative error eps (absolute for tiny numbers), sin and cos are accurate to eps and the chain's data are stored to eps, ChainFkSolverVel_recursive::JntToCart returns for every chain, joint positions and rates and segment number an angular velocity within 520 n^2 eps A B and a linear velocity within 9700 n^3 eps A B D of those of exact arithmetic (n segments, joint travel A, lengths D, joint speeds B), so that close to the true rate of change of the tip frame; pose errors are those of the position solver. With IEEE doubles, 20 segments, 10 rad, 2 m and unit speeds: 1e-9 and 1e-6. The pose returned with the velocity is bit for bit the one ChainFkSolverPos_recursive returns, and the error code does not depend on rounding.", "quantifier": "all rounding functions with error eps (for pose and code: all rounding functions), all chains, joint positions, rates and segment numbers", "why_tests_cant": "Tests compare a few configurations with a loose tolerance; the accumulated error depends on every operation and grows with the chain.", "anchors": ["orocos_kdl/src/chainfksolvervel_recursive.cpp:ChainFkSolverVel_recursive::JntToCart", "orocos_kdl/src/framevel.inl:operator*", "orocos_kdl/src/segment.cpp:Segment::twist", "orocos_kdl/src/chainfksolverpos_recursive.cpp:ChainFkSolverPos_recursive::JntToCart"]}
{"id": "C84", "title": "Position solvers assembled from the library's own parts always answer", "statement": "Construct ChainIkSolverPos_NR or _NR_JL with ChainFkSolverPos_recursive and any of ChainIkSolverVel_pinv, _pinv_nso or _wdls, all for the same chain, and call CartToJnt any number of times with any goals, start positions and array sizes. Every call returns. A call with arrays of the wrong size answers E_SIZE_MISMATCH and leaves the output alone; any other answer has one entry per joint, NR_JL's lies within the limits unless it is the start position, success means the pose is within eps of the goal (for NR, the pose before the last step), the only other codes are the exhausted iterations and the failed velocity solver, and the latter appears only when the singular value decomposition of the Jacobian at the returned position reports failure. Every answer is the one the freshly constructed solver would give: earlier calls leave no trace. For the tree solvers with TreeFkSolverPos_recursive and TreeIkSolverVel_wdls likewise every call returns, an unknown endpoint answers -2, limits on positions and, for the online solver, on joint speeds are respected on every call.", "quantifier": "all chains and trees, all solver settings (nonzero lambda for the damped solvers, at least six joints where the code needs them), all sequences of calls, any behaviour of the decomposition (for _wdls: correct when it reports success)", "why_tests_cant": "A test runs a few calls from good starts; an out-of-bounds access, a division by zero or state left over from one call can show on any later call of any session.", "anchors": ["orocos_kdl/src/chainiksolverpos_nr_jl.cpp:ChainIkSolverPos_NR_JL::CartToJnt", "orocos_kdl/src/chainiksolverpos_nr.cpp:ChainIkSolverPos_NR::CartToJnt", "orocos_kdl/src/chainiksolvervel_pinv.cpp:ChainIkSolverVel_pinv::CartToJnt", "orocos_kdl/src/chainiksolvervel_pinv_nso.cpp:ChainIkSolverVel_pinv_nso::CartToJnt", "orocos_kdl/src/chainiksolvervel_wdls.cpp:ChainIkSolverVel_wdls::CartToJnt", "orocos_kdl/src/treeiksolverpos_nr_jl.cpp:TreeIkSolverPos_NR_JL::CartToJnt", "orocos_kdl/src/treeiksolverpos_online.cpp:TreeIkSolverPos_Online::CartToJnt"]}
{"id": "C85", "title": "Tree forward kinematics in floating point", "statement": "TreeFkSolverPos_recursive in floating point returns a pose close to the exact pose of the segment: with doubles, fewer than twenty segments between it and the root, angles up to 10 rad and lengths up to 2 m, each entry of the rotation is right to 1e-11 and each coordinate to 1e-8, and in general the errors grow at most linearly and quadratically with the depth of the segment. Rounding changes neither the return code nor whether a call is defined. The answer equals, to the last bit, that of ChainFkSolverPos_recursive on the chain getChain gives out between the root and the segment.", "quantifier": "all trees that can be built, all segments, all joint positions within the stated sizes, any rounding with the stated error, any sin and cos of the C library with that error", "why_tests_cant": "Tests compare a few poses with a tolerance; the error bound must hold for every tree, depth, position and rounding.", "anchors": ["orocos_kdl/src/treefksolverpos_recursive.cpp:TreeFkSolverPos_recursive::JntToCart", "orocos_kdl/src/treefksolverpos_recursive.cpp:TreeFkSolverPos_recursive::recursiveFk", "orocos_kdl/src/tree.cpp:Tree::getChain", "orocos_kdl/src/chainfksolverpos_recursive.cpp:ChainFkSolverPos_recursive::JntToCart"]}
{"id": "C86", "title": "Rotations and frames do not drift away in floating point", "statement": "However many calls of RotX, RotY, RotZ, RPY, EulerZYX, EulerZYZ, Rot2, Quaternion, the product, the inverse and DoRotX, DoRotY, DoRotZ are nested, the matrix computed in floating point stays within a bound linear in the number of calls of the exact one, which is a rotation, and is orthonormal up to twice that bound: with doubles and up to a million calls, 1e-7 and 2e-7. Axes and quaternions may themselves be rounded. The same holds for frames built from these rotations by products and inverses, and for points they move, with an error of the position that grows with the square of the number of calls, or with the cube when inverses are used.", "quantifier": "all programs that nest these calls, to any depth, all angles, all unit axes and quaternions, any rounding with the stated error, any sin and cos of the C library with that error", "why_tests_cant": "Drift accumulates over sequences of operations of any length and order; tests run a few short ones with a tolerance.", "anchors": ["orocos_kdl/src/frames.cpp:Rotation::RPY", "orocos_kdl/src/frames.cpp:Rotation::EulerZYZ", "orocos_kdl/src/frames.cpp:Rotation::Quaternion", "orocos_kdl/src/frames.cpp:Rotation::Rot2", "orocos_kdl/src/frames.inl:Rotation::DoRotX", "orocos_kdl/src/frames.inl:Rotation::DoRotY", "orocos_kdl/src/frames.inl:Rotation::DoRotZ", "orocos_kdl/src/frames.inl:Frame::Inverse", "orocos_kdl/src/frames.cpp:operator*"]}
{"id": "C87", "title": "Reading a quaternion in floating point is accurate at every rotation", "statement": "GetQuaternion in floating point returns, for a matrix that is a rotation up to an error, a quaternion that is near a unit quaternion of that rotation, with an error proportional to that of the matrix plus that of one operation, at every rotation including half turns and whichever of its four branches the rounded comparisons select; it never takes the root of a negative number or divides by zero. Converting a matrix to a quaternion and back, or a quaternion to a matrix and back, returns the original up to such an error, the quaternion up to its sign. The sign itself is not a continuous function of the rotation.", "quantifier": "all rotations, all matrices near them, any rounding with the stated error; all programs of C86", "why_tests_cant": "The branches meet at rotations a test does not hit, and rounding can select either of them; the bound must hold on both sides of every boundary.", "anchors": ["orocos_kdl/src/frames.cpp:Rotation::GetQuaternion", "orocos_kdl/src/frames.cpp:Rotation::Quaternion"]}
{"id": "C88", "title": "Lengths, unit vectors and rotations about any axis in floating point", "statement": "Vector::Norm in floating point has a relative error of at most 21 roundings at every scale, Vector::Normalize returns the direction of the vector up to 25 roundings and a vector of length one, and Rotation::Rot about any axis is right up to 850 roundings, so that with doubles these are 1e-14, 1e-14 and 2e-13; none of them divides by zero or takes the root of a negative number. A vector shorter than half the library's epsilon is replaced by the x axis, as in exact arithmetic. The axis a Joint stores is the unit vector it was given up to the same error.", "quantifier": "all vectors at least twice, or at most half, as long as the library's epsilon, all angles, any rounding with the stated relative error, any sin and cos of the C library with that error", "why_tests_cant": "The scaled formula has four cases chosen by the order of the components; the error must be bounded for all of them at every magnitude.", "anchors": ["orocos_kdl/src/frames.cpp:Vector::Norm", "orocos_kdl/src/frames.cpp:Vector::Normalize", "orocos_kdl/src/frames.cpp:Rotation::Rot", "orocos_kdl/src/joint.cpp:Joint::Joint"]}
{"id": "C89", "title": "Inverse dynamics in floating point", "statement": "The torques ChainIdSolver_RNE::CartToJnt computes in floating point differ from those of exact arithmetic by at most a constant times the rounding error, where the constant depends on the arm, its motion and the external wrenches but not on the arithmetic; so any accuracy is reached by a fine enough arithmetic and each further binary digit halves the bound. The return code, and whether the call is defined at all, do not depend on the rounding, whatever the chain, the state of the solver and the sizes of the arguments. The same holds of ChainDynParam::JntToCoriolis and JntToGravity. The bound still holds when the joint arguments are first rounded to floating point numbers themselves.", "quantifier": "all chains, solver states, joint positions, velocities, accelerations and external wrenches, any rounding and any sin and cos of the C library with an error of at most eps <= 1", "why_tests_cant": "A test compares the torques of a few motions with a tolerance; that the error is proportional to the rounding error, with no cancellation or case distinction that amplifies it without bound as the arithmetic gets finer, must hold for every arm and motion.", "anchors": ["orocos_kdl/src/chainidsolver_recursive_newton_euler.cpp:ChainIdSolver_RNE::CartToJnt", "orocos_kdl/src/chaindynparam.cpp:ChainDynParam::JntToCoriolis", "orocos_kdl/src/chaindynparam.cpp:ChainDynParam::JntToGravity", "orocos_kdl/src/rigidbodyinertia.cpp:operator*"]}
{"id": "C90", "title": "Mass matrix and forward dynamics in floating point", "statement": "The mass matrix ChainDynParam::JntToMass computes in floating point differs in every entry from that of exact arithmetic by at most a constant times the rounding error, and its return code, its size and whether the call is defined do not depend on the rounding. Where the mass matrix has non-zero pivots, which is so for every arm whose joints carry mass, the accelerations ChainFdSolver_RNE::CartToJnt computes differ from those of exact arithmetic by at most a constant times the rounding error once that error is small enough, whatever earlier calls left in the object. Inverse dynamics at the computed accelerations then gives the torques back, and forward dynamics at computed torques the accelerations, up to a constant times the rounding error. The same bound holds of ldl_solver_eigen alone. A call of CartToJnt or of ldl_solver_eigen with arguments of the wrong size, or on a solver that is not up to date, is refused with the same code as in exact arithmetic and leaves its output alone. Mass matrices, and the accelerations of arms whose joints carry mass, keep such a bound when the joint arguments are first rounded to floating point numbers themselves.", "quantifier": "all chains, solver states, joint positions, velocities, torques and external wrenches, any rounding and any sin and cos of the C library with an error of at most eps", "why_tests_cant": "Forward dynamics divides by the pivots of a computed matrix; a test sees a few well conditioned arms, while the claim is that for every arm with a regular mass matrix the divisions stay harmless and the error vanishes in proportion to the rounding error.", "anchors": ["orocos_kdl/src/chaindynparam.cpp:ChainDynParam::JntToMass", "orocos_kdl/src/chainfdsolver_recursive_newton_euler.cpp:ChainFdSolver_RNE::CartToJnt", "orocos_kdl/src/utilities/ldl_solver_eigen.cpp:ldl_solver_eigen", "orocos_kdl/src/articulatedbodyinertia.cpp:operator*"]}
{"id": "C91", "title": "Simulation in floating point", "statement": "For every arm whose joints carry mass, after any number of steps of ChainFdSolver_RNE::RK4Integrator the joint positions and velocities computed in floating point differ from those the same steps give in exact arithmetic by at most a constant times the rounding error, once that error is small enough; so any accuracy is reached by a fine enough arithmetic. No step meets undefined behaviour. The constant depends on the arm, the initial state, the step and the number of steps.", "quantifier": "all chains with joints that carry mass, initial states, torques, external wrenches, step sizes and numbers of steps, any rounding and any sin and cos of the C library with an error of at most eps", "why_tests_cant": "A test runs one simulation and compares it with a tolerance; that rounding errors fed back through any number of steps, each with four linear solves, stay proportional to the rounding error must hold for every arm, state and number of steps.", "anchors": ["orocos_kdl/src/chainfdsolver_recursive_newton_euler.cpp:ChainFdSolver_RNE::RK4Integrator", "orocos_kdl/src/chainfdsolver_recursive_newton_euler.cpp:ChainFdSolver_RNE::CartToJnt"]}
