{"id": "C01", "title": "Event schedule pops in time order, first-in-first-out on ties", "statement": "Whatever sequence of schedule_event and pop_event calls has been made, top_event is the pending event with the smallest timestamp, and among pending events with that timestamp it is the one scheduled first; pop_event removes exactly that event.", "quantifier": "For every payload type, every finite history of schedule and pop calls on a fresh schedule, and every reachable heap layout.", "why_tests_cant": "Tests try a few random histories; the order depends on the whole history and on the internal heap shape, of which there are infinitely many.", "anchors": ["resim/time/event_schedule.hh: EventSchedule::schedule_event, top_event, pop_event, CompareEvents::operator()"]}
{"id": "C02", "title": "Event schedule neither loses nor duplicates events", "statement": "At any point the scheduled events are exactly the popped events together with the pending ones, size() is the number pending, and popping until empty returns the pending events in stable time order.", "quantifier": "For every finite history of schedule and pop calls.", "why_tests_cant": "Conservation must hold after every prefix of every history.", "anchors": ["resim/time/event_schedule.hh: EventSchedule::schedule_event, pop_event, size"]}
{"id": "C03", "title": "Event schedule lifetime bound", "statement": "Exactly numeric_limits<Count_t>::max() events can be scheduled during the life of a schedule, popped events included; every further schedule_event throws and changes nothing observable, and the order guarantee holds right up to the bound.", "quantifier": "For every maximum count value and every history, including histories longer than the bound.", "why_tests_cant": "With the default 64-bit counter the bound cannot be reached by running the code.", "anchors": ["resim/time/event_schedule.hh: MAX_EVENTS, schedule_event"]}
{"id": "C04", "title": "Checked integer arithmetic is exact or throws", "statement": "safe_sum, safe_difference and safe_abs return the mathematically exact result whenever it fits in int64 and throw otherwise; no intermediate computation overflows.", "quantifier": "For every pair of int64 values.", "why_tests_cant": "2^128 argument pairs; the corner cases are at INT64_MIN/MAX where the checks themselves could overflow.", "anchors": ["resim/math/safe_integer_utils.cc: safe_sum, safe_difference, safe_abs"]}
{"id": "C05", "title": "Seconds/nanoseconds split is a lossless normal form", "statement": "to_seconds_and_nanos followed by from_seconds_and_nanos gives back the duration, with no overflow; the split has |nanos| < 10^9 with the sign of the duration, and it is the only such split.", "quantifier": "For every int64 nanosecond count.", "why_tests_cant": "2^64 durations, including INT64_MIN.", "anchors": ["resim/time/timestamp.hh: to_seconds_and_nanos, from_seconds_and_nanos"]}
{"id": "C06", "title": "Timestamp num_samples is the minimum sample count for distinct ends", "statement": "num_samples(start,end,dt) on Timestamps with distinct ends returns the smallest number of samples (both endpoints included) whose even spacing does not exceed dt; it throws exactly when dt <= 0, the span does not fit in int64, or the count does not fit in int64. With equal ends it returns 1 for dt = 1ns and 2 for every larger dt, so there the documented minimum (1) is missed.", "quantifier": "For every pair of timestamps and every dt, in either order.", "why_tests_cant": "The minimality claim quantifies over all smaller counts and over all int64 inputs, including equal endpoints and extreme spans.", "anchors": ["resim/time/sample_interval.cc: num_samples(Timestamp,Timestamp,Duration)"]}
{"id": "C07", "title": "Timestamp sampling covers the interval evenly", "statement": "When sample_interval on Timestamps returns normally, the functor has been called num_samples times, first at start, last at end, moving monotonically from start to end, with neighbouring samples never further apart than max_abs_dt.", "quantifier": "For every pair of distinct timestamps and every positive dt for which the call returns.", "why_tests_cant": "Property of a loop of input-dependent length over all int64 inputs.", "anchors": ["resim/time/sample_interval.cc: sample_interval(Timestamp,Timestamp,Duration,func)"]}
{"id": "C08", "title": "Timestamp samples are the rounded ideal positions", "statement": "For start < end every sample delivered by sample_interval on Timestamps is an integer nanosecond closest to the ideal rational position start + ii*(end-start)/(n-1). For end < start every sample is the ideal position truncated towards start, less than one nanosecond away; so the documented 'closest possible' fails for reversed intervals.", "quantifier": "For every pair of timestamps (either order), every positive dt and every sample index.", "why_tests_cant": "Rounding must be right at every index of every interval; the mixed-number accumulator could drift only after many steps or only for reversed intervals.", "anchors": ["resim/time/sample_interval.hh:50-57", "resim/time/sample_interval.cc: sample_interval(Timestamp,...)"]}
{"id": "C09", "title": "Timestamp sampling: exactly when it completes, throws or overflows", "statement": "For spans below 2^62 ns sample_interval on Timestamps completes without overflow. Over all inputs: the call throws exactly when the arguments are rejected up front or an accumulated numerator leaves the int64 range, and it executes an overflowing signed addition (after the last functor call) exactly when end-start + (end-start)/intervals leaves the range; num_samples never overflows.", "quantifier": "For every triple of int64 values.", "why_tests_cant": "Overflow happens only on extreme inputs whose loops are too long to run.", "anchors": ["resim/time/sample_interval.cc:83-125"]}
{"id": "C10", "title": "Floating-point sampling of an interval", "statement": "sample_interval on doubles calls the functor once, with start, if start equals end; throws if dt is not positive (NaN included) and they differ; and otherwise, q being the rounded quotient of the rounded length by dt: is undefined iff the difference overflows or q exceeds 2^31-2 (so an hour at microsecond steps is undefined); makes a single call with NaN if q is 0; and else makes ceil(q)+1 calls, all with finite numbers, the first equal to start, the last equal to end, each within max(|start|,|end|)/2^51 + 2^-1073 of its evenly spaced position, these positions being at most dt(1+2^-51) apart. The calls need not be in order, and the spacing can exceed dt (0 to 3 by 0.3).", "quantifier": "For every finite binary64 start and end and every binary64 dt.", "why_tests_cant": "2^192 bit patterns; the failures need a quotient that underflows to zero, a count above 2^31 or particular low bits.", "anchors": ["resim/time/sample_interval.cc: num_samples(double,double,double), sample_interval(double,...)"]}
{"id": "C11", "title": "Converting a duration to seconds and back", "statement": "as_duration(as_seconds(d)) is d or one nanosecond nearer to zero if |d| is at most 2^23 seconds (97 days), and is d if besides |d| exceeds 2^52 ns; differs from d by at most one nanosecond below 2^53 ns; and by at most 3|d|/2^53+2 ns for |d| up to 2^63-2^12 (for the longest duration it is undefined). as_seconds keeps the order of durations, strictly up to 2^23 seconds; that bound is sharp, as is the lost nanosecond (15 ns come back as 14 ns). For e from 0 to 10, a duration d with 2^(52+e) ns <= |d| <= 2^(23+e) s comes back as the double nearest to it, so exactly the multiples of 2^e come back unchanged; for times since 1970 from July 2006 to January 2038 (2^31 s) e is 8, and beyond that bound even multiples of 256 ns need not come back. The order of durations is kept there and back. From 2^52 ns on, but for the 4094 longest, converting there and back a second time changes nothing more; of shorter durations that is false: 1915 ns lose one nanosecond twice.", "quantifier": "For every int64 nanosecond count.", "why_tests_cant": "2^64 inputs; whether the double rounding and truncation lose a nanosecond depends on the particular bits.", "anchors": ["resim/time/timestamp.hh: as_seconds, as_duration"]}
{"id": "C12", "title": "UUID text round trip and exact grammar", "statement": "Constructing a UUID from the text of another gives an equal UUID; the text is always 36 lowercase characters in the 8-4-4-4-12 layout; the string constructor accepts exactly the strings of that layout with hexadecimal digits of either case (looking only at the characters before the first NUL), and throws on all others.", "quantifier": "For every 16-byte id and every string.", "why_tests_cant": "2^128 ids and unboundedly many strings.", "anchors": ["resim/utils/uuid.cc: UUID::UUID(const std::string&), UUID::to_string", "libuuid uuid_parse / uuid_unparse_lower"]}
{"id": "C13", "title": "UUID equality, nullness and hashing agree", "statement": "Two UUIDs are equal iff their texts are equal, equal UUIDs have equal hashes, != is the negation of ==, and a UUID is null iff it equals the default one.", "quantifier": "For every pair of 16-byte ids.", "why_tests_cant": "2^256 pairs.", "anchors": ["resim/utils/uuid.cc: operator==, operator!=, is_null", "resim/utils/uuid.hh: std::hash<resim::UUID>"]}
{"id": "C14", "title": "No transform is ever half framed", "statement": "No sequence of constructor, set_frames, set_unframed, inverse, composition, interpolation, exponential or proto unpacking calls yields an SO3 or SE3 with exactly one null frame; attempts throw and leave existing transforms unchanged.", "quantifier": "For every finite history of API calls over a store of transforms.", "why_tests_cant": "The invariant must survive every interleaving of operations, not just the ones tests try.", "anchors": ["resim/transforms/liegroup.hh: LieGroup::LieGroup(into,from), set_frames, set_unframed, is_framed", "resim/transforms/so3.cc", "resim/transforms/se3.cc"]}
{"id": "C15", "title": "Composition of framed transforms is type safe", "statement": "Composing two framed transforms succeeds iff the inner frames are equal and gives (left into, right from); if either is unframed the result is unframed; inverse swaps frames; composition is associative including when it throws, provided all operands are framed or none is; with framed and unframed operands mixed, bracketing can decide whether it throws.", "quantifier": "For every pair/triple of transforms and frames.", "why_tests_cant": "Unboundedly many frame assignments and expression shapes.", "anchors": ["resim/transforms/so3.cc: SO3::operator*, inverse", "resim/transforms/se3.cc: SE3::operator*, inverse"]}
{"id": "C16", "title": "A chain of framed compositions is checked end to end", "statement": "A left-to-right product of any number of framed transforms returns normally iff consecutive frames link up, and then the result maps the last from frame into the first into frame and acts on points as the successive application of the factors.", "quantifier": "For every list of framed transforms of any length.", "why_tests_cant": "Chains of arbitrary length.", "anchors": ["resim/transforms/se3.cc: SE3::operator*"]}
{"id": "C17", "title": "Framed vectors never mix frames", "statement": "Adding framed vectors succeeds iff the frames match and keeps the frame; scaling keeps the frame; rotating by a transform succeeds iff the transform is framed and its from frame is the vector's frame, and the result carries the into frame; equality compares vector and frame; adding a bare vector and overwriting the frame are not checked; approximate comparison (isApprox) compares the frames exactly when its argument is a const lvalue, and ignores them for a temporary or a non-const variable, against its documentation.", "quantifier": "For every vector, frame, scalar and transform.", "why_tests_cant": "All frame/vector combinations, and overload resolution picks different comparison code for const and non-const arguments.", "anchors": ["resim/transforms/framed_vector.hh: operator+, operator*, operator==, isApprox", "resim/transforms/so3.cc: SO3::rotate(FramedVector)", "resim/transforms/se3.cc: SE3::rotate(FramedVector)"]}
{"id": "C18", "title": "Rotations form a group and stay rotations", "statement": "SO3 composition, inverse and identity satisfy the group laws; products, inverses, exponentials, angle-axis and unit-quaternion constructions of rotations are rotations (orthogonal, determinant one), so lengths, dot products and cross products of vectors are preserved.", "quantifier": "For every rotation matrix, unit axis, angle, unit quaternion and vector over the reals.", "why_tests_cant": "Continuum of inputs; closure must hold along every expression.", "anchors": ["resim/transforms/so3.cc: SO3::operator*, inverse, identity, SO3(AngleAxis), SO3(Quaternion), exp"]}
{"id": "C19", "title": "Rigid transforms form a group acting on points", "statement": "SE3 composition, inverse and identity satisfy the group laws and the action on points is a group action that preserves distances; rotate() is the linear part of the action.", "quantifier": "For every SE3 with a genuine rotation part and every point, over the reals.", "why_tests_cant": "Continuum of inputs.", "anchors": ["resim/transforms/se3.cc: SE3::operator*, operator*(Vector3d), inverse, identity, rotate"]}
{"id": "C20", "title": "exp after log is the identity on rotations", "statement": "For every rotation R, SO3::exp(R.log()) is R, including rotations by pi and by zero.", "quantifier": "For every 3x3 real orthogonal matrix of determinant one.", "why_tests_cant": "Continuum; the branch structure of the matrix-to-quaternion conversion has measure-zero cases (angle pi, equal diagonal entries) that sampling misses.", "anchors": ["resim/transforms/so3.cc: SO3::exp, SO3::log", "Eigen AngleAxis/Quaternion conversions"]}
{"id": "C21", "title": "log after exp is the identity inside the injectivity radius", "statement": "For every tangent vector v with |v| < pi, SO3::exp(v).log() is v; log() never returns a vector longer than pi, nor longer than any other vector with the same exponential.", "quantifier": "For every 3-vector of norm below pi; for every rotation.", "why_tests_cant": "Continuum, with branch boundaries.", "anchors": ["resim/transforms/so3.cc: SO3::exp, SO3::log"]}
{"id": "C22", "title": "SE3 exp and log are mutually inverse", "statement": "SE3::exp(g.log()) is g and SE3::exp(v).log() is v for rotation part shorter than pi: exactly when the rotation angle is zero or at least sqrt(TINY_SQUARE_ANGLE), and up to a relative translation error of at most 1e-15 for smaller angles, where it is in fact not exact.", "quantifier": "For every rigid transform / tangent vector over the reals.", "why_tests_cant": "Continuum; three coefficient branches whose agreement has to be checked everywhere, including the small-angle polynomial.", "anchors": ["resim/transforms/se3.cc: SE3::exp, SE3::log", "resim/transforms/liegroup_exp_diff.cc: derivative_of_exp_so3"]}
{"id": "C23", "title": "Adjoints are what they claim to be", "statement": "g * exp(v) * g^-1 = exp(g.adjoint_times(v)), exactly for SO3 and for SE3 unless the rotation angle of v is tiny and nonzero, when the translations differ by at most 1e-26 |g.translation()|; adjoint() as a matrix does what adjoint_times does; adjoint of a product is the product of adjoints; the algebra adjoint is the Lie bracket (matrix commutator), antisymmetric, satisfies Jacobi and is preserved by the group adjoint.", "quantifier": "For every SO3/SE3 element and tangent vectors over the reals.", "why_tests_cant": "Continuum of inputs.", "anchors": ["resim/transforms/so3.cc:115-129", "resim/transforms/se3.cc:160-204", "resim/transforms/cross_matrix.cc"]}
{"id": "C24", "title": "Interpolation runs from identity to the transform along a one-parameter subgroup", "statement": "interp(0) is the identity, interp(1) is the transform, interp(s) and interp(t) compose to interp(s+t), an SO3 interpolant turns about the same axis by the fraction of the angle, and frames are preserved (or the from frame replaced, throwing for unframed transforms) as documented; for SE3 this is exact except where a tiny nonzero rotation angle brings in the truncated series, with relative errors at most 1e-15 (ends) and 1e-23 (composition).", "quantifier": "For every transform and every pair of fractions, including outside [0,1].", "why_tests_cant": "Continuum of inputs.", "anchors": ["resim/transforms/so3.cc: SO3::interp", "resim/transforms/se3.cc: SE3::interp"]}
{"id": "C25", "title": "exp_diff is the derivative of exp", "statement": "SO3::exp_diff(v) is the left derivative of exp: along every differentiable curve v(t), exp(v(t)) has derivative cross(exp_diff(v) v') exp(v), exactly when |v| is zero or |v|^2 >= TINY_SQUARE_ANGLE, and with a left velocity off by at most 1e-23 |v'| otherwise.", "quantifier": "For every v and w over the reals.", "why_tests_cant": "Analytic statement; numeric tests can only difference at sampled points.", "anchors": ["resim/transforms/so3.cc: SO3::exp_diff", "resim/transforms/liegroup_exp_diff.cc: derivative_of_exp_so3"]}
{"id": "C26", "title": "arc_length is the length of the interpolation path", "statement": "SE3::arc_length() is the length (least upper bound of inscribed polygons) of the constant-speed screw motion that interp traces with the origin; interp(s) is on that motion exactly when the interpolated angle is zero or not tiny, and within 1e-23 |s| arc_length otherwise.", "quantifier": "For every rigid transform and fraction.", "why_tests_cant": "Integral over a continuum.", "anchors": ["resim/transforms/se3.cc: SE3::arc_length, interp"]}
{"id": "C27", "title": "Distance helpers measure the relative translation", "statement": "se3_inverse_distance(ref_from_a,ref_from_b) is the norm of the translation of a_from_b and of b_from_a; se3_distance(a_from_ref,b_from_ref) is the distance between the images of the reference origin, which is the documented norm of the translation of a_from_b when the rotations agree but not in general; both are symmetric and throw exactly when the shared frame differs.", "quantifier": "For every pair of rigid transforms.", "why_tests_cant": "Tests using equal rotations cannot see the difference between the two formulas.", "anchors": ["resim/transforms/se3.hh:166-196", "resim/transforms/se3.cc:267-275"]}
{"id": "C28", "title": "cross_matrix represents the cross product", "statement": "cross_matrix(a)*b = a x b, it is antisymmetric, linear, and conjugation by a rotation rotates the vector.", "quantifier": "For every pair of real 3-vectors and every rotation.", "why_tests_cant": "Continuum of inputs.", "anchors": ["resim/transforms/cross_matrix.cc"]}
{"id": "C29", "title": "Two-jet composition is the product rule", "statement": "If two curves of transforms have the first and second derivatives stated by two TwoJetL (TwoJetR) values at a time t, then their product curve has the derivatives stated by the composed two-jet at t.", "quantifier": "For all twice differentiable curves in SO3 or SE3 and every time.", "why_tests_cant": "Quantifies over functions; tests use finite differences at sampled curves.", "anchors": ["resim/curves/two_jet.cc: TwoJetL::operator*, TwoJetR::operator*"]}
{"id": "C30", "title": "Two-jet inverse and left/right conversion are exact", "statement": "inverse() of a two-jet describes the inverse curve; right_two_jet() and left_two_jet() are mutually inverse and describe the inverse curve in the other tangent space; two-jets form a group under composition and conversion reverses products. A default constructed two-jet is neutral among jets without frames. After any setter calls each getter returns the last value given to its own setter.", "quantifier": "For all two-jets and twice differentiable curves.", "why_tests_cant": "Quantifies over functions and a continuum of jets.", "anchors": ["resim/curves/two_jet.cc: TwoJetL::inverse, right_two_jet, TwoJetR::inverse, left_two_jet"]}
{"id": "C31", "title": "Quintic blending coefficients", "statement": "Each of the five coefficient functions returns a polynomial of degree five together with its true first and second derivatives, and at normalized times 0 and 1 it takes the Hermite boundary values (only its own boundary condition is one, the other are zero).", "quantifier": "For every real normalized time.", "why_tests_cant": "Identity of functions.", "anchors": ["resim/curves/quintic_poly_coeffs.cc", "resim/curves/quintic_poly_coeffs.hh:69-83"]}
{"id": "C32", "title": "A curve segment interpolates its end conditions", "statement": "Every query of a TCurveSegment succeeds with the frames of its end points. point_at(0) is the origin two-jet. point_at(1) is the destination two-jet, pose and both derivatives; for SE3 the position may differ by at most 1e-15 of the relative translation, and not at all unless the relative rotation is tiny but not zero. A segment can be built exactly if the frames of its ends agree.", "quantifier": "For every pair of end two-jets of SO3 or SE3 with matching frames.", "why_tests_cant": "Continuum of inputs; five composed factors must cancel exactly.", "anchors": ["resim/curves/t_curve_segment.cc: TCurveSegment::point_at, point_value_accumulator"]}
{"id": "C33", "title": "Reported curve derivatives are the derivatives of the reported pose", "statement": "The first and second derivatives returned by point_at are the true left-tangent derivatives, with respect to time, of the pose returned by point_at, in normalized time for a segment and in curve time for a curve. SO3 curves are twice continuously differentiable at every time inside, control times included. An SE3 curve follows a twice continuously differentiable curve through its control points: same rotations and rotational derivatives, positions within 1e-23 of the travelled distances, and no difference where no increment has a tiny non-zero rotation.", "quantifier": "For every segment and curve built through the API and every query time.", "why_tests_cant": "Derivative of a composed function at every time.", "anchors": ["resim/curves/t_curve_segment.cc: point_at", "resim/curves/t_curve.cc: point_at, unnormalize_derivatives"]}
{"id": "C34", "title": "Curve building keeps its invariants and is failure atomic", "statement": "After any sequence of append calls, some of which throw, the control times are strictly increasing, all control points have the same frames, there is one segment per consecutive pair joining exactly these points, and a throwing append leaves the curve unchanged; an append throws exactly when time does not increase or the frames differ.", "quantifier": "For every finite history of appends with arbitrary arguments.", "why_tests_cant": "Histories of arbitrary length with failures at arbitrary points.", "anchors": ["resim/curves/t_curve.cc: TCurve::append, TCurve(vector), append(initializer_list)"]}
{"id": "C35", "title": "Querying a time curve", "statement": "point_at(t) throws exactly when the curve has fewer than two control points or t is outside [start_time, end_time]; otherwise it evaluates the segment containing t; at a control time it returns the control point (pose and derivatives), so neighbouring segments agree at their common control point. start_time and end_time are the first and last control time and the frame accessors give the frames common to all control points and segments; on a curve without control points they all throw.", "quantifier": "For every curve built through the API and every real time.", "why_tests_cant": "Continuum of times and unbounded number of segments; the binary search must be right at every boundary.", "anchors": ["resim/curves/t_curve.cc: point_at, point_at_impl, start_time, end_time"]}
{"id": "C36", "title": "Distance curve building", "statement": "After any sequence of appends, some of which throw, the control arc lengths start at zero, never decrease, each segment joins its neighbours and its length is the arc length of the relative transform; a throwing append leaves the curve unchanged; appends throw exactly when the frames do not fit the first or the last point; if the first point is framed, all points have its frames (if it is not, a curve can hold poses of different frames).", "quantifier": "For every finite history of appends.", "why_tests_cant": "Histories of arbitrary length.", "anchors": ["resim/curves/d_curve.cc: DCurve::append, curve_length, is_framed"]}
{"id": "C37", "title": "Querying a distance curve", "statement": "point_at(s) throws exactly for s outside [0, curve_length()] or fewer than two control points. The answer is not a number exactly for s = 0 on a curve whose second control point has arc length zero. Otherwise it is the pose on the screw motion between the two control points around s, at the fraction of its length, with the orientation exact and the position within 1e-23 of the distance. Control points that end a segment of positive length are met; others (turns in place) need not be.", "quantifier": "For every curve built through the API and every real s.", "why_tests_cant": "Continuum of queries; the failing curves need a zero-length first segment.", "anchors": ["resim/curves/d_curve.cc: point_at, point_at_impl"]}
{"id": "C38", "title": "Smoothness of distance curves", "statement": "The positions of a DCurve follow a path parametrized by arc length: 1-Lipschitz everywhere, through all control points, with unit speed inside the segments. If no segment has length zero the orientation is Lipschitz continuous as well. The documented claim 'by design the curve is C1 smooth' is false, and with a turn in place even the orientation jumps.", "quantifier": "For every curve built through the API whose relative rotations are zero or not tiny, and every arc length.", "why_tests_cant": "Smoothness is a limit statement.", "anchors": ["resim/curves/d_curve.hh:16-21", "resim/curves/d_curve.cc: point_at"]}
{"id": "C39", "title": "Rigid body state accessors and composition", "statement": "After any sequence of setter calls each getter returns what the last call of its own setter gave, or what it returned before if there was none; a state built from pose and derivatives returns them, one built from a pose has zero derivatives, and the five getters determine the state. a.inverse_times(a*b) is b, a*(a.inverse_times(b)) is b and a.inverse_times(a) is the identity; composing the states of two motions gives pose, velocity and acceleration of the composed motion and inverse_times those of the relative one; frames that do not fit throw.", "quantifier": "For every state and pair of states, every sequence of setter calls, every pair of twice differentiable motions.", "why_tests_cant": "Histories of calls and a continuum of values; the composed acceleration has cross terms that a few examples do not exercise.", "anchors": ["resim/actor/state/rigid_body_state.cc", "resim/actor/state/rigid_body_state.hh"]}
{"id": "C40", "title": "Trajectories store and return what was appended", "statement": "After any history of appends, caught failures included, the trajectory holds exactly the points that were acceptable, in order: the first one, and then those with the same frames whose time since the start, as a double of seconds, exceeds that of the previous one. A failing append changes nothing. start_time is the first control time (the epoch as long as nothing was appended), the frames are those of every control point, a query throws exactly when there are fewer than two points or the time is outside, and at a control time it returns the control state (exactly, or up to 1e-15 of the distance in the position when the relative rotation is tiny). A trajectory made from a curve is not checked: it need not be usable at its own start time.", "quantifier": "For every finite history of appends with any timestamps and states.", "why_tests_cant": "Histories of arbitrary length over a continuum of states.", "anchors": ["resim/actor/state/trajectory.cc: append, point_at, start_time, reference_frame, body_frame"]}
{"id": "C41", "title": "Trajectory times survive the conversion to floating point", "statement": "Strictly increasing timestamps with equal frames are accepted if none is more than 2^23 seconds (97 days) after the first; end_time() is then the timestamp of the last control point or one nanosecond earlier, exact beyond 2^52 ns, and can be queried. Neither holds without qualification: points at 0 and 15 ns give an end_time of 14 ns, and 2^23 seconds plus one and plus two nanoseconds after the start are rejected as not increasing.", "quantifier": "For every list of strictly increasing timestamps.", "why_tests_cant": "Depends on the rounding of individual 64-bit integers.", "anchors": ["resim/actor/state/trajectory.cc: append, end_time, time_duration", "resim/time/timestamp.hh: as_seconds, as_duration"]}
{"id": "C42", "title": "Matrix proto round trip", "statement": "A matrix travels as its entries in column-major order. Unpacking into a matrix of the same shape gives it back, re-packing what was unpacked gives the same elements, and unpacking throws exactly when the number of elements differs from that of the output. Only the number travels: a 2x3 matrix is accepted into a 3x2 one with its entries rearranged.", "quantifier": "For every matrix size and contents.", "why_tests_cant": "All sizes and contents.", "anchors": ["resim/math/proto/matrix_to_proto.hh: pack_matrix, unpack_matrix"]}
{"id": "C43", "title": "Proto round trip of frames, vectors and transforms", "statement": "Packing and unpacking a UUID, Frame, FramedVector, SO3 or SE3 gives back the same value with the same frames. A message is accepted exactly when it has the right number of elements and well-formed ids that are both null or both not; everything else, such as a message whose ids are missing, throws.", "quantifier": "For every value (SE3: rotation zero or not tiny exact, otherwise within the stated bound).", "why_tests_cant": "Continuum of transforms; relies on exp/log being inverse everywhere.", "anchors": ["resim/transforms/proto/liegroup_to_proto.cc", "resim/transforms/proto/frame_3_to_proto.cc", "resim/transforms/proto/framed_vector_3_to_proto.cc", "resim/utils/proto/uuid_to_proto.cc"]}
{"id": "C44", "title": "Proto round trip of jets and curves", "statement": "Packing and unpacking a TwoJetL/R, TCurve, DCurve or Trajectory built through the API gives back the same value, with the same control points in the same order, times, derivatives, segments and start time; poses turned by a tiny but non-zero angle come back within the bound of the SE3 round trip instead, so 'always the same value' is false. Packing into a null pointer throws and what the message held before does not matter. A curve message is accepted exactly if every control point is well formed and acceptable to append, and the result is what those appends build; everything else throws. Unpacking into a caller's curve replaces what it held, and after a throw leaves the control points before the refused one. A trajectory message whose start time does not fit is undefined behaviour. The start time written is a valid protobuf timestamp exactly if it is not before 1970 or a whole number of seconds. Of the valid protobuf timestamps whose time an int64 count can hold, exactly those with seconds = -9223372037 are undefined behaviour to read.", "quantifier": "For every curve of any length built through the API.", "why_tests_cant": "Unbounded lengths; unpacking re-runs every append check.", "anchors": ["resim/curves/proto/two_jet_to_proto.cc", "resim/curves/proto/t_curve_to_proto.cc", "resim/curves/proto/d_curve_to_proto.cc", "resim/actor/state/proto/trajectory_to_proto.cc"]}
{"id": "C45", "title": "Proto round trip of view primitives and updates", "statement": "Packing and unpacking a ViewPrimitive or ViewUpdate gives back the same payload kind and value, id, file, line and optional name, in order, except that a name that is present but empty comes back absent. A message with no payload or no well-formed id is rejected; an update is accepted exactly if each of its primitives is, otherwise it fails as the first bad one does.", "quantifier": "For every update of any length, every payload alternative and every name.", "why_tests_cant": "Cross product of alternatives, names and unbounded lists; the empty-but-present name is easy to miss.", "anchors": ["resim/visualization/proto/view_primitive_to_proto.cc", "resim/visualization/proto/view_update_to_proto.cc"]}
{"id": "C46", "title": "Status and StatusValue never lie", "statement": "A StatusValue holds a value iff ok(), value() throws iff not ok(), it can never be built okay without a value, and a chain of RETURN_OR_ASSIGN steps on StatusValue variables returns the first error or the final value, whatever the later steps are. Applied directly to a call returning by value, as the examples do, RETURN_OR_ASSIGN is undefined behaviour: it uses the returned temporary after its end of life (so 'a chain of direct steps behaves the same' is false). StatusValue<Status> is not rejected as intended, and one made from a bad rvalue status is ok().", "quantifier": "For every value, status and chain of fallible steps of any length.", "why_tests_cant": "Chains of arbitrary length with failure at any step.", "anchors": ["resim/utils/status.hh", "resim/utils/status_value.hh"]}
{"id": "C47", "title": "Sample mean and covariance", "statement": "mean() is the unique point with the least sum of squared distances; it commutes with affine maps and does not depend on the order of the samples; without samples it is undefined behaviour. For fewer than 2^32 samples covariance() throws exactly below two samples and otherwise agrees with the unbiased pairwise-difference formula. It is symmetric and positive semi-definite, zero exactly in directions in which all samples agree, unchanged by shifts and reordering, and becomes A C A^T under x -> A x + b. With 2^32 or more samples the count wraps around, so it throws for 2^32 samples and is 2^32 + 1 times too big for 2^32 + 2.", "quantifier": "For every number of samples and dimensions over the reals.", "why_tests_cant": "Unbounded sizes over a continuum.", "anchors": ["resim/math/sample_statistics.hh: mean, covariance"]}
{"id": "C48", "title": "Gaussian sampling matrix reproduces the covariance", "statement": "Given an exact eigen decomposition of the lower half of the covariance, the constructor accepts exactly if the sizes agree, the covariance is symmetric to 1e-12 and its quadratic form exceeds minus the tolerance; otherwise it throws (dimension zero is undefined behaviour). Stored eigenvalues are the solver's with negative ones replaced by zero. Samples are an affine image of the draws, each used once, whose linear part L satisfies L L^T = covariance if that is symmetric positive semi-definite, and within the tolerances otherwise, so mean and covariance of the samples are determined by those of the draws. That the solver failed to converge is not noticed.", "quantifier": "For every dimension, mean, decomposition and matrix of draws over the reals.", "why_tests_cant": "Unbounded dimension, continuum of matrices.", "anchors": ["resim/math/multivariate_gaussian.cc"]}
{"id": "C49", "title": "The auth client hands out a token it obtained or stored", "statement": "In any history of get_jwt and refresh calls, client restarts and processes killed while polling, a returned token was delivered by the server or was in the token file to begin with, and the token file holds it afterwards; it is empty only if the file was empty to begin with (so 'get_jwt never returns an empty token' is false: an empty token file is trusted for ever without contacting the server). A returned token is cached: no server contact or file access happens while it is held. refresh forgets both copies, so the next get_jwt contacts the server and returns a token delivered after the refresh.", "quantifier": "For every history of calls and every server behaviour, from every initial file system state.", "why_tests_cant": "Server behaviour and histories are unbounded.", "anchors": ["resim/auth/device_code_client.cc: get_jwt, refresh, load_token, fetch_token, save_token"]}
{"id": "C50", "title": "Crash safety of the stored token", "statement": "If the process stops at any point during get_jwt and a new client is started on the same path, the new client either finds no token file and contacts the server, or returns the file content, which is what it was before or an initial segment of the token being saved; over any history with any number of crashes every returned token is an initial segment of a token delivered by the server or stored initially. The stronger 'it returns a complete token or contacts the server' is false: a kill between opening and writing the file leaves an empty or truncated token that is trusted.", "quantifier": "For every crash point, including part-way through writing the file.", "why_tests_cant": "Crash points between system calls cannot be enumerated by unit tests.", "anchors": ["resim/auth/device_code_client.cc: save_token, load_token, refresh"]}
{"id": "C51", "title": "Token polling terminates and respects the expiry", "statement": "fetch_token stops at the first poll answer without error, polls only before the expiry time, throws on timeout, on an unparsable answer, on a bad device-code status or on an empty token, and never changes the stored token when it throws.", "quantifier": "For every sequence of server answers and every monotone clock with positive interval.", "why_tests_cant": "Unbounded sequences of answers and clock readings.", "anchors": ["resim/auth/device_code_client.cc: fetch_token, json_query"]}
{"id": "C52", "title": "Every viewed object is delivered exactly once and in order", "statement": "Under any interleaving of any number of threads calling view_object, set_client aside and with all sends succeeding, when a call returns its primitive has been sent; each primitive is sent exactly once; each thread's primitives are sent in its program order; the updates concatenated are the order of insertion; no deadlock.", "quantifier": "For every number of threads, every program per thread and every schedule.", "why_tests_cant": "Schedules cannot be enumerated by running.", "anchors": ["resim/visualization/view.cc: View::view_object, View::flush"]}
{"id": "C53", "title": "Failed sends", "statement": "If a send fails, flush throws, the pending primitives are dropped and never sent again, the view stays usable; some thread can always go on. The first update sent after an insertion contains the inserted primitive; a single thread therefore knows that its view_object returned exactly if the update with its object was accepted. With several threads this is false: another thread's failing update may have carried the object while the caller's own, empty, update succeeds.", "quantifier": "For every schedule and every pattern of send failures.", "why_tests_cant": "Needs a second thread's flush to carry the first thread's primitive and fail.", "anchors": ["resim/visualization/view.cc: View::flush", "resim/utils/status.hh: CHECK_STATUS_OK"]}
{"id": "C54", "title": "View client numbers updates uniquely and in order", "statement": "The update ids used in the URLs of successive send_view_update calls are strictly increasing from zero without reuse, a retry after 401 reuses the id of the update it retries with the same body, and ids advance by one per attempt that reached the upload step, success or not.", "quantifier": "For every history of calls and every server behaviour.", "why_tests_cant": "Unbounded histories and server behaviours.", "anchors": ["resim/visualization/client/view_client.cc: send_view_update"]}
{"id": "C55", "title": "View client session handling", "statement": "At most one session is created per client as long as the server's answer contains a character other than quote and newline; uploads use exactly that session id stripped of quotes and newlines; nothing is uploaded before a session exists; at most four requests are made per call; the token is refreshed, and the same request made once more, exactly when the first reply to a request is 401; the returned status is okay iff the final upload answer is 201, and otherwise its text says whether the session or the update was refused.", "quantifier": "For every history of calls and every server behaviour.", "why_tests_cant": "Unbounded histories and server behaviours.", "anchors": ["resim/visualization/client/view_client.cc: send_view_update"]}
{"id": "C56", "title": "What approximate equality of transforms and jets means", "statement": "Two rotations compare equal exactly if their frames are equal and the turn t between them satisfies 8 sin(t/2)^2 <= 3e-24: always up to 1.2e-12 rad and never from 1.3e-12 rad on, and the answer without frames does not change if both are multiplied by a rotation on either side or inverted. Two poses compare equal exactly if frames are equal, rotations compare equal and the distance of the origins is at most 1e-12 times either origin's distance from zero. Two two-jets compare equal exactly if their rotations or poses do and each derivative differs from the other by at most 1e-12 times the length of either. The comparisons of rotations, poses and jets are reflexive and symmetric. A pose with zero translation, or a jet with zero derivative, compares equal only to ones with exactly zero translation or derivative. False are: transitivity; that poses with equal rotations and close enough origins compare equal, for any tolerance; that poses comparing equal are within any fixed distance; invariance of the pose comparison under composition with a pose.", "quantifier": "For every pair of transforms and jets, over the real numbers.", "why_tests_cant": "Tests use the comparison as their oracle and never look at its own threshold, at zero translations against tiny ones, or at poses far from the origin.", "anchors": ["resim/transforms/so3.cc: SO3::is_approx, SO3::is_approx_transform", "resim/transforms/se3.cc: SE3::is_approx, SE3::is_approx_transform", "resim/curves/two_jet.cc: TwoJetL::is_approx, TwoJetR::is_approx"]}
{"id": "C57", "title": "Status texts and what the checking macros evaluate", "statement": "what() is OKAY exactly for okay statuses; for a bad one it identifies line and message, and the file too if file names have no colon (with a colon: false). CHECK_STATUS_OK on a variable throws exactly if the status is bad, and the exception text contains its what(). On an expression with side effects it evaluates twice, taking the text from the first and the decision from the second evaluation, so 'throws exactly if the call failed' is false: a call that fails and then succeeds passes. RETURN_IF_NOT_OK evaluates once.", "quantifier": "For every status, every file, line and message, and every effectful expression.", "why_tests_cant": "Tests pass variables to the macro and compare texts for single statuses.", "anchors": ["resim/utils/status.cc: Status::what", "resim/utils/status.hh: CHECK_STATUS_OK, RETURN_IF_NOT_OK", "resim/assert/assert.cc: AssertException"]}
{"id": "C58", "title": "What each form of view statement shows", "statement": "If all sends succeed, VIEW(x) << n and VIEW(x, n) show x once with name n, file and line; resim::view << x << y ... shows each object without a name, file 'Unknown file' and line 0; each shown object is the only one in its update and has a new id; updates come in program order. If a send fails the statement throws, the rest of the statement is not shown, nothing is sent again, and later statements are unaffected. 'Every VIEW statement shows its object once' is false: VIEW(x) alone shows nothing and VIEW(x, n) << m shows x twice.", "quantifier": "For every program of view statements and every pattern of send failures.", "why_tests_cant": "Tests run single statements; programs and failure patterns are unbounded.", "anchors": ["resim/visualization/view.hh: VIEW, ViewObject", "resim/visualization/view.cc: View::operator<<, View::view_object, ViewObject::operator<<"]}
{"id": "C59", "title": "Time lookup on a TCurve in double precision", "statement": "After any appends, refused ones included, a TCurve with two or more control points has no NaN time and strictly increasing times (infinities only first or last). point_at throws for times before the first or after the last; any other time that is not NaN is looked up in a segment that contains it. In a segment between finite times whose length is from 2^-1021 to 2^1021 the normalised time is finite, in [0,1], monotone, 0 at the start, 1 or 1-2^-53 at the end, and within 5*2^-53 relative plus 2^-1075 of the exact fraction. Times made by as_seconds, as in Trajectory, always have such segments. False: 'a time that is not between the first and last is refused' (NaN is accepted and looked up as NaN), 'the end of a segment is looked up at exactly 1' (0 to 49), 'the normalised time is a number whenever all times are finite' (a segment of 2^-1074, or one longer than the biggest double).", "quantifier": "For every sequence of appends of doubles, NaN and infinities included, and every query time.", "why_tests_cant": "Rounding, subnormal and overflowing segment lengths and NaN are outside any table of test times; the claims are about all 2^64 doubles.", "anchors": ["resim/curves/t_curve.cc: TCurve::append, TCurve::point_at_impl", "resim/curves/t_curve.hh: PointAtData", "resim/actor/state/trajectory.cc: Trajectory::append, point_at"]}
{"id": "C60", "title": "The quintic weights of a TCurve in double precision", "statement": "For every normalised time in [0,1] the computed weights of dest_from_orig, d_orig, d_dest, d2_orig and d2_dest are finite and within 2^-44 (value), 2^-43 (first derivative) and 2^-42 (second derivative) of the quintic Hermite polynomials and their true derivatives; at normalised times 0 and 1 they are exact; NaN gives NaN. Through the lookup, in segments of length 2^-1021 to 2^1021, they are exact at the start of a segment and within 2^-43, 2^-42 and 2^-41 at its end. 'The weight of the motion stays in [0,1] and is one at the end of a segment' is false: at time 49 of a segment from 0 to 49 it exceeds one.", "quantifier": "For all five polynomials, all doubles as normalised times, and all curves and control times.", "why_tests_cant": "Rounding errors of Horner evaluation at every double cannot be enumerated; tests compare at a few times with a tolerance.", "anchors": ["resim/curves/quintic_poly_coeffs.cc: QuinticPolyCoeffs", "resim/curves/quintic_poly_coeffs.hh: the tables", "resim/curves/t_curve.cc: TCurve::point_at_impl"]}
{"id": "C61", "title": "A time curve along one steady motion is the quintic through its end data", "statement": "Let two neighbouring control points lie on one motion of constant velocity (a rotation about an axis, a straight line, a screw motion), at places that are a quintic polynomial of time with the derivatives that follow, and less than half a turn apart. Then every query between them gives the pose on that motion at the place given by the polynomial, with the derivatives that follow: exactly for SO3 and for straight lines, and for screw motions with exact rotations and positions within 1e-23 of the distances. In particular a motion of constant velocity sampled at any times more than twice per turn is reproduced at all times. Without the limit of half a turn this is false: a full turn becomes standing still.", "quantifier": "For every motion of constant velocity, every quintic, every curve built through the API and every query time.", "why_tests_cant": "Reproduction of a whole class of motions at every time; tests look at single curves and a few times.", "anchors": ["resim/curves/t_curve_segment.cc: point_at", "resim/curves/t_curve.cc: point_at", "resim/curves/quintic_poly_coeffs.hh"]}
{"id": "C62", "title": "What a time curve depends on", "statement": "A time curve does not depend on the unit or origin of time, nor on the reference frame: changing them at the control points changes all queries accordingly, errors included. It does not depend on which point of a body is followed if neighbouring control points are less than half a turn apart: exactly for SO3, and for SE3 with exact rotations and positions within 1e-23 of the distances. False are: independence of the followed point with neighbours half a turn apart, and that the curve through the same control points in the opposite order of time is the same curve backwards.", "quantifier": "For every pair of curves built through the API whose control points correspond, every change of clock and frame, every query time.", "why_tests_cant": "A relation between runs with different inputs, over all curves, transforms and times.", "anchors": ["resim/curves/t_curve_segment.cc: point_at", "resim/curves/t_curve.cc: point_at, append", "resim/transforms/se3.cc: exp, log, adjoint_times"]}
{"id": "C63", "title": "Arc lengths of a DCurve in double precision", "statement": "For segment lengths that are norms (not NaN, not negative; infinity included) the arc lengths of the control points of a DCurve start at zero, are never NaN and never decrease; after k segments the arc length is the exact sum of the lengths within factors (1-2^-53)^k and (1+2^-53)^k, and finite unless that sum reaches the biggest double. With at least one segment, point_at refuses exactly the arc lengths that are NaN, negative or beyond curve_length(); -0 is accepted. Any other is placed in a segment that contains it. In a segment with a finite end beyond its start the fraction is finite, in [0,1], monotone, 0 at the start, exactly 1 at the end, and within 4*2^-53 relative plus 2^-1075 of the exact one; the segments found never decrease with the arc length. One NaN length makes every query throw. False: 'the fraction is in [0,1]' (d_curve.hh; two equal first poses give NaN), 'if all segments are longer than zero every one of them can be reached' (lengths 2^53 and 1: the last control point is unreachable).", "quantifier": "For every list of segment lengths and every double as arc length.", "why_tests_cant": "Rounding makes whole segments disappear only at particular lengths, and NaN, infinities and coincident poses are not in the tests; the bounds hold for any number of segments.", "anchors": ["resim/curves/d_curve.cc: DCurve::append, curve_length, point_at_impl", "resim/curves/d_curve.hh: PointAtData"]}
{"id": "C64", "title": "Composing rotations in double precision", "statement": "Let rotations be given as SO3 values whose stored matrices are finite and within e (Frobenius) of the rotations they stand for. Whatever is built from them with operator* and inverse() has finite entries and is within 10/9*(k*e + n*11*2^-53) of the exact result, where k rotations are given and n products taken, as long as that bracket is at most 1/10; its columns are orthonormal within 5/2 of the bracket, and rotating a vector of length up to 2^995 gives it with that relative error plus 6*2^-53 (and 7*2^-1075), its length too. Doubles store exactly only the rotations with entries -1, 0 and 1; built from those alone every product, inverse and rotated vector is exact. False: the error stays bounded however many products are taken (it can grow by sqrt(3)*2^-52 with each, for 2^51 products); a rotation times its inverse is the identity (turn with cosine 5/13: first entry 1+2^-52); products may be regrouped.", "quantifier": "For every expression of products and inverses over every finite set of given rotations, and either order in which Eigen may add three products.", "why_tests_cant": "Tests compose two or three random rotations and compare up to a tolerance; growth of the error over many products and over all rotations is out of their reach.", "anchors": ["resim/transforms/so3.cc: SO3::operator*, rotate, inverse"]}
{"id": "C65", "title": "Composing poses in double precision", "statement": "Let poses be given as SE3 values with rotations within e of what they stand for and translations within e*L of what they stand for, whose lengths do not exceed L (each pose with its own L, at least 2^-900, and adding up to at most 2^900). Whatever is built from them with operator* and inverse() has finite entries; with n operations, inverses nested d deep and w = d*n*(e + 11*2^-53) at most 1/10, the rotation obeys the bound of C64, and the translation is within 2*w times the sum of the L of the exact one. A point p is moved with an error of at most (2*w + 2*2^-53)*sum of L + (bound of C64 + 8*2^-53)*|p|. False: a pose times its inverse leaves no translation.", "quantifier": "For every expression of products and inverses over every finite set of given poses, every point up to 2^900, and either order in which Eigen may add three products.", "why_tests_cant": "Tests compose a few random poses and compare up to a tolerance; they do not measure how errors depend on the lengths and the number of operations.", "anchors": ["resim/transforms/se3.cc: SE3::operator*, inverse", "resim/transforms/so3.cc: SO3::operator*, inverse"]}
{"id": "C66", "title": "Making rotations in double precision", "statement": "SO3::exp of a finite vector v of length up to 2^490 has finite entries and is within (51 + 4*|v|)*2^-53 (Frobenius) of the turn by |v| about v; for the zero vector it is exactly the identity. SO3(angle, axis) for a finite angle of any size and an axis within e <= 1/100 of a unit vector n is within 31*2^-53 + 5.5*e of the turn by angle about n; SO3(quaternion) for a quaternion within e <= 1/100 of a unit quaternion is within 16*2^-53 + 12.3*e of the turn that one stands for. exp(-v) is the inverse of exp(v) bit for bit, so is the rotation of the conjugate quaternion, and a quaternion and its negative give the same bits. Anything built with operator* and inverse() from k results of exp for vectors up to length l is within 10/9*(k*(51 + 4*l) + 11*n)*2^-53 of exact after n products, as long as that bracket times 2^-53 is at most 1/10. False: exp of a finite vector is a rotation (an entry of 2^512 or more gives nine NaNs); every finite non-zero quaternion gives a rotation (2k gives a matrix at distance 6 or more from all of them).", "quantifier": "For every finite vector, angle, axis and quaternion in the stated ranges, every sine and cosine accurate to a unit in the last place, and either order in which Eigen may add three products.", "why_tests_cant": "Tests exponentiate a few random vectors of moderate size and compare up to 1e-6 or so; the error bound, the range in which it holds and the exact symmetries need all of them.", "anchors": ["resim/transforms/so3.cc: SO3::SO3, exp"]}
{"id": "C67", "title": "Making poses from twists in double precision", "statement": "SE3::exp of a twist with rotation part w (|w| <= 2^490) and translation part t (|t| <= 2^500) has only finite entries; its rotation is within (51 + 4*|w|)*2^-53 of the turn by |w| about w, and its translation is within (76 + 2.03/max(|w|, 0.0019))*2^-53*|t| + (11 + 7*|w|)*2^-1075 of the end of the path that a body with the constant angular velocity w and body velocity t follows in unit time. With w = 0 the result is exactly the identity rotation and t. SO3::exp_diff(w) has finite entries and is within (110 + 2.89/max(|w|, 0.0019))*2^-53 + (18 + 12*|w|)*2^-1075 of the matrix that takes every velocity to the end of that path. Anything built with operator* and inverse() from poses made by SE3::exp stays within the bound of C65 with (1200 + 4*l)*2^-53 as the error of each, l the largest angle. False: the translation is always good to a few units in the last place (for some w of length 0.002 and unit t it is off by 200 units whatever cosine within its specification the library returns).", "quantifier": "For every finite twist in the stated range, every sine and cosine accurate to a unit in the last place, either order in which Eigen may add three products, and every expression built from such poses.", "why_tests_cant": "Tests compare a handful of exponentials up to a tolerance that hides the loss of precision; where it is largest and that it never exceeds the bound needs all angles, including those on both sides of the switch to the series.", "anchors": ["resim/transforms/se3.cc: SE3::exp", "resim/transforms/so3.cc: SO3::exp_diff", "resim/transforms/liegroup_exp_diff.cc: derivative_of_exp_so3", "resim/transforms/cross_matrix.cc: cross_matrix"]}
{"id": "C68", "title": "Distance curves of steady motions, from other viewpoints and of mounted sensors", "statement": "If the poses given to a DCurve are those of a body moving with constant linear velocity v (not zero) and angular velocity w, as seen from the body, at times 0 = x0 < x1 < ..., each step less than half a turn and not a turn of less than 0.002 other than zero, then the arc lengths are the distances x*|v| and point_at(z*|v|) is the pose of the body at the time z, for every z up to the last: the orientation exactly, the position up to 1e-23 of the distance. A DCurve given the poses h*g instead of g (h in a matching frame) takes and refuses the same ones, has the same length, and every query throws, gives no usable answer, or gives exactly h times the pose as it did. A DCurve given the poses g*h of a sensor mounted on the body has segments whose length is the speed |v + w x t| of the sensor, t its place on the body and (w, v) the log of the segment of the body, and at the same fraction of corresponding segments it answers the pose of the body times h, if the segment of the body is less than half a turn and not a tiny one.", "quantifier": "For all numbers and spacings of poses, all velocities, mounting and reference transforms with or without frames, and all query points; over the reals.", "why_tests_cant": "Tests query curves of two or three hand-made poses; agreement with the continuous motion at every point, and exact independence of the frame of reference for every history of appends, concern all poses.", "anchors": ["resim/curves/d_curve.cc: DCurve::append, point_at, point_at_impl, curve_length", "resim/transforms/se3.cc: SE3::interp, log, arc_length, operator*"]}
{"id": "C69", "title": "Reading rotations back in double precision", "statement": "For a stored SO3 within e <= 1/2000 (Frobenius) of an exact rotation r: quaternion() is within 3*e + 22*2^-53 of a unit quaternion of r; log() is a finite vector no longer than pi + 22*2^-53 whose exact turn is within 8.5*e + 101*2^-53 of r, and which is within 15.3*e + 182*2^-53 of every rotation vector of r of length up to 3; exp(log()) is within 8.5*e + 165*2^-53 of r, half turns included. log(exp(v)) is within 1150*2^-53 of v for every finite v of length up to 3. interp(f), |f| <= 2^480, is within (52 + 17.1*|f|)*2^-53 of the turn by f times the vector log() returns, and within 21.7*|f|*e + (52 + 275*|f|)*2^-53 of the turn by f times the rotation vector of r if that is no longer than 3; interp(0) is exactly the identity and interp(1) is what exp makes of log(). log() of the identity, and of every symmetric matrix that close to it, is exactly zero. False: log(exp(v)) is near v for v of length pi.", "quantifier": "For every stored matrix that close to a rotation, every fraction in the range, every sine, cosine and arctangent accurate to a unit in the last place, either order in which Eigen may add three terms, and any rescaled norm between half and twice the length.", "why_tests_cant": "Tests take logs of random rotations and compare up to a tolerance; the four ways of finding the quaternion, rotations near half a turn and ones so small that the squared length underflows need all matrices.", "anchors": ["resim/transforms/so3.cc: SO3::log, interp, quaternion, exp"]}
{"id": "C70", "title": "What the example programs trace", "statement": "The poses of unit_circle(x, y, z, s), s not zero, make a DCurve of length 2*pi*|s| whose point_at(a*|s|) is, for every a from 0 to 2*pi, the outward-facing pose at the angle a of the circle of radius s about s*(x, y, 0) at height s*z (orientation exact, position up to 1e-23 of the distance), in the frames given to framed_unit_circle; the poses of a sensor mounted on that body, as the example computes them, make a DCurve of the sensor's own circle, of radius |(1 + tx, ty)|, with the mounting transform applied at every point. The DCurve of examples/curves.cc is a straight metre, a quarter circle left, a straight metre and a quarter circle right, 2 + pi long. The TCurve of make_circle_curve, inverted, is the body on the unit circle at every time from 0 to 2*pi, to 1e-22, and translate_t_curve by an offset along z gives the same circle at that height. The interpolation of liegroups.cc between the turns by pi - e and -pi + e passes through the half turn. SO3::exp of three angles equals the composition of the three turns if two of them are zero and differs if exactly one is zero and the vector is shorter than 2*pi. False: they agree only when two angles are zero (liegroups.cc comment); translate_t_curve gives the velocities of the offset body (it does just if the offset is along z).", "quantifier": "For all radii, centres, frames, mounting transforms, offsets, angles and query points; over the reals, with M_PI the number.", "why_tests_cant": "The example programs check a few sample points, if any, and one choice of angles; that a curve through five poses is a circle everywhere is a statement about all its points.", "anchors": ["resim/visualization/examples/example_02_distance_parameterized_unit_circle.cc: unit_circle, framed_unit_circle, main", "resim/visualization/examples/example_03_time_parameterized_closed_curve.cc: make_circle_curve, translate_t_curve", "resim/curves/test_helpers.cc: make_circle_curve", "resim/examples/curves.cc: main", "resim/examples/liegroups.cc: main"]}
{"id": "C71", "title": "Reading poses back in double precision", "statement": "For a stored SE3 whose rotation is within e <= 1/2000 (Frobenius) of an exact rotation r and whose translation t is finite with |t| <= 2^500: log() is a finite twist (w, v) with |w| <= pi + 22*2^-53, the exact turn by w is within 8.5*e + 101*2^-53 of r, and the exact screw motion of (w, v) leads within 1383*2^-53*|t| + 23*2^-1075 of t (158 in place of 1383 if |w| <= 2). If a screw motion (w0, v0) with |w0| <= 3 leads to r and within d of t, then w is within 15.3*e + 182*2^-53 of w0 and v within 1.87*d + (38*e + 1835*2^-53)*|t| + 23*2^-1075 of v0. log(exp(w, v)) is within 1150*2^-53 of w and 6400*2^-53*|v| + 90*2^-1075 of v, |w| <= 3; exp(log()) is within 8.5*e + 165*2^-53 of r and 1800*2^-53*|t| + 60*2^-1075 of t, half turns included. interp(f) is within (52 + 17.1*|f|)*2^-53 of the turn, and (1148 + 3*|f|)*2^-53*|f|*|v| + (20 + 23*|f|)*2^-1075 of the translation, of the part f of the screw motion of log(), and for 0 <= f <= 1 follows every screw motion as above within 21.7*e + 327*2^-53 and 4*d + (59*e + 4250*2^-53)*|t| + 67*2^-1075; interp(0) is exactly the identity. arc_length() is, to 2.55*2^-53 of itself and 2^-498, the length of the path of the origin under a screw motion that leads to the pose as above, and differs from the length under (w0, v0) by at most 1.87*d + (38*e + 1840*2^-53)*|t| + 2^-497. With the identity, or a symmetric matrix that close to it, as rotation, log() is exactly zero and t.", "quantifier": "For every stored pose that close to a rigid motion, every fraction with |f| <= 2^480 and |f|*|t| <= 2^498 (arc length: |t| <= 2^488), every sine, cosine and arctangent accurate to a unit in the last place, and either order in which Eigen may add three terms.", "why_tests_cant": "Tests compare logs of a few random poses up to a tolerance of about 1e-7; the three formulas for one coefficient, the branch points between them and the division by a sine near half a turn need all poses. One of the formulas adds where its series multiplies (se3.cc:146), too little for a test to see; the bounds say how little.", "anchors": ["resim/transforms/se3.cc: SE3::log, interp, arc_length, exp"]}
{"id": "C72", "title": "Distance curves in double precision", "statement": "For control points gs that stand for poses along a chain of n >= 0 screw motions of at most three radians each, no farther than B from the origin (2^-400 <= B <= 2^480), stored with rotations within e <= 1/5000 (Frobenius) and translations within e*B; u = 2^-53: DCurve<SE3>(gs) has a finite curve_length() within 2*n*((161*e + 4570*u)*B + u*L) of the length L of the path of the origin. point_at(a) answers for every finite a with 0 <= a <= curve_length() if n > 0, and throws if a is NaN, negative, beyond curve_length() or n = 0. The answer has a rotation within 45*e + 600*u and a translation within (260*e + 10000*u)*B of the exact pose at an arc length that differs from a by at most n*((326*e + 9300*u)*B + 8*u*L), if a is not zero or the first motion is longer than (161*e + 4570*u)*B. Without the last condition it can be anything: for two control points that are both the identity point_at(0) has a translation that is not a number.", "quantifier": "For every chain of at most 2^52 screw motions, every stored control point that close to it, every arc length, every sine, cosine and arctangent accurate to a unit in the last place, and either order in which Eigen may add three terms.", "why_tests_cant": "Tests query curves of four or five points at random places and accept differences of about 1e-7; that errors of the inverse, the product, the logarithm, the running sum of lengths, the fraction and the interpolation add up to no more than this for all curves is beyond them, and none starts with coincident points.", "anchors": ["resim/curves/d_curve.cc: DCurve::append, point_at, point_at_impl, curve_length", "resim/transforms/se3.cc: SE3::inverse, operator*, log, interp, arc_length"]}
{"id": "C73", "title": "Which branch match() calls", "statement": "match(variant, branches...) takes part in overload resolution exactly if all branches are of class type and, for an rvalue of every alternative, exactly one branch is the best match and all of these return one type; it compiles exactly if the same holds for the alternatives as the variant passes them (const or not, lvalue or rvalue). It then calls the one best branch with what the variant holds, and throws if the variant is valueless. The order of the branches changes neither. Branches that take their argument by value or by const reference behave the same for every kind of variant, and compile if the check accepts them; with one such non-mutable branch per alternative (as in the packing of view primitives) match() compiles and calls the branch for the alternative held. With a default branch (auto, const auto& or auto&&) nothing is converted, and if all are non-mutable and by value or const reference an alternative with a branch of its own goes there. Not guaranteed: a mutable default branch is called instead of a branch that names the alternative; without a default branch an alternative that no branch names can be accepted by conversion, such as a double for a branch that takes an int; branches by non-const reference are refused although the call would be well formed, and a branch by rvalue reference is accepted for a variable and does not compile.", "quantifier": "For every list of alternatives (arithmetic or class types), every list of branches with one parameter (declared or generic; by value, reference or rvalue reference; const or mutable), and every kind of variant.", "why_tests_cant": "Tests try two variants and nine lists of branches; which calls compile is decided at compile time by the overload rules on all combinations of alternatives, branches and value categories.", "anchors": ["resim/utils/match.hh: match, Overloads, BranchesConsistent", "docs/resim/utils/match.md", "resim/visualization/proto/view_primitive_to_proto.cc: pack"]}
{"id": "C74", "title": "Segments of time curves of rotations in double precision", "statement": "Let two states (a rotation, its angular velocity and acceleration) have rotations at most three radians apart, and velocities and accelerations of at most m, per normalised time. There is exactly one state at every time that a TCurveSegment between them stands for; it starts with the one and ends with the other, and its velocity and acceleration are the derivatives of its rotation. If the two ends are stored with rotations within e (Frobenius), and velocities and accelerations within e*m, and (1 + m)*(e + 100u) <= 1e-5, u = 2^-53, then point_at(t) of the segment is, for every finite t from 0 to 1, within 79*(1 + m)*(e + 100u) of that state's rotation, 340*(1 + m)^2*(e + 100u) of its velocity and 2560*(1 + m)^3*(e + 100u) of its acceleration, and these are at most 9.7*(1 + m) and 62.8*(1 + m)^2. In particular point_at(0) and point_at(1) are that near the two ends.", "quantifier": "For every two states, every pair of stored two-jets that near to them, every time, every sine, cosine and arctangent accurate to a unit in the last place, and either order in which Eigen may add three terms.", "why_tests_cant": "Tests compare segments between a few random two-jets with finite differences, to about 1e-7, and check the ends; how the errors of the five exponentials, the products and the polynomials spread into velocity and acceleration for all ends and times is beyond them.", "anchors": ["resim/curves/t_curve_segment.cc: TCurveSegment::point_at", "resim/curves/two_jet.cc: TwoJetL::operator*, identity", "resim/transforms/so3.cc: SO3::exp, log, adjoint_times"]}
{"id": "C75", "title": "Time curves of rotations in double precision", "statement": "Let two or more states (a rotation, its angular velocity and acceleration) follow each other at increasing times, one to the next at most three radians apart. There is exactly one exact curve: one state at every time from the first to the last, through all control points, whose velocity and acceleration are the derivatives of its rotation, at the control points too. TCurve<SO3>(points) throws exactly when a time is not after the one before. If all times are stored exactly, on every piece (of length d from 2^-200 to 2^200) both ends have velocities of at most m/d and accelerations of at most m/d^2, their rotations are stored within e, velocities within e*m/d and accelerations within e*m/d^2, u <= m, and (1 + m)*(e + 105u) <= 1e-5, u = 2^-53, then point_at(t) for every finite t from the first to the last time returns a two-jet within 79*(1 + m)*(e + 105u) of the exact rotation, 341*(1 + m)^2*(e + 105u)/d of the velocity and 2565*(1 + m)^3*(e + 105u)/d^2 of the acceleration, where d is the length of the piece; in particular every control point comes back that near. Before the first time, after the last, and with fewer than two control points point_at throws. That it refuses all times outside the range is false: a time that is not a number is answered with a velocity and an acceleration that hold no numbers.", "quantifier": "For every list of control points, stored that near, every query time, every sine, cosine and arctangent accurate to a unit in the last place, and either order in which Eigen may add three terms.", "why_tests_cant": "Tests build a few curves with random control points and check the control points and finite differences to about 1e-7 at some times; that times are normalised, looked up and scaled back without losing accuracy for all piece lengths, speeds and times is beyond them.", "anchors": ["resim/curves/t_curve.cc: TCurve, append, point_at, point_at_impl, unnormalize_derivatives", "resim/curves/t_curve_segment.cc: TCurveSegment::point_at", "resim/curves/two_jet.cc: TwoJetL::operator*"]}
{"id": "C76", "title": "View client against the mock view server", "statement": "Let the mock view server (any session id, any status code for updates) and the mock authentication client (token t, refreshed to r, or to t if r is empty) answer everything a new ViewClient asks while it sends any list of fewer than 2^64 serialised updates. If t is the valid token, or t is not the forbidden one and r is the valid one (and the refreshed token is the valid one if the server's code is 401), the server's receiver is called, in the order of the calls, exactly for the updates that can be read, each with the update, the server's session id and the number of the call counted from 0; it is called twice per update, four times if the server answers updates with 401. A call then returns an okay status if and only if the code is 201 and the update can be read, otherwise the status ends with 'Could not send view update.'. With any other tokens the receiver is never called and every call returns a status ending with 'Could not create session.'. Such an exchange exists for every list of updates, server and authentication client. That the receiver is called once for an update posted once is false: the handler calls it again for the text of the answer.", "quantifier": "For every session id, status code, pair of tokens, list of update bodies, server address, parser and receiver.", "why_tests_cant": "The tests send one or two updates with a few tokens and check what the receiver was given, not how often it was called; they cannot cover all lists of updates, tokens and codes.", "anchors": ["resim/visualization/testing/mock_server.cc: MockServer, validate_headers", "resim/testing/mock_server.cc: add_post_receiver", "resim/auth/testing/mock_auth_client.hh: MockAuthClient", "resim/visualization/client/view_client.cc: ViewClient::send_view_update"]}
{"id": "C77", "title": "Output parameter wrappers", "statement": "A program that uses InOut<T> and NullableReference<T> (making them from objects, copying them, assigning NullableReferences, writing and reading through them, asking has_value(), ends of lifetimes, functions that keep copies) changes the same objects in the same way and reads the same values as the program that names the objects instead: for an InOut the object it, or the InOut it was copied from, was made from, for a NullableReference the object last given to it; using an empty NullableReference throws and changes nothing; the program is undefined exactly where the one with the names is. No program makes an InOut refer to another object. An object from which neither was made cannot change unless it is named. That InOut makes it impossible for arguments to be modified without clients expecting it, as the header says, is false: a function may keep a copy and change the object in a later call that does not name it. That a NullableReference with a value can be dereferenced is false after the object's lifetime.", "quantifier": "For every program of such statements, of any length, over any type.", "why_tests_cant": "Tests call two lambdas with an empty and a full reference; aliasing between any number of copies, assignments and objects is beyond them.", "anchors": ["resim/utils/inout.hh: InOut", "resim/utils/nullable_reference.hh: NullableReference", "resim/examples/output_parameters.cc: main"]}
{"id": "C78", "title": "Device code client against the mock device code server", "statement": "Let MockDeviceCodeServer (any token, interval and state) answer a DeviceCodeClient that has no token and no token file, while its receivers or other threads call set_browser_auth_complete() and set_timeout_s() at any points between the requests. get_jwt() asks for one device code. If the first poll by which the user has approved since that request begins before the deadline, it returns the server's token after exactly that poll, one sleep of the server's interval between polls, and saves the token to the file; if the server's token is empty it throws there. If the deadline is reached before, it throws after the polls begun before the deadline and writes no file. The deadline is the clock's reading after the answer to the request for the code plus the timeout set last before that answer, 600 seconds if none was. Otherwise it is still polling. Such an exchange exists for every client without a token, server, calls of the setters and clock. That an approval given before the request for the code counts is false: the request resets it.", "quantifier": "For every state of client and server, every clock, every interleaving of the setters with the requests, and any number of polls.", "why_tests_cant": "The tests approve at the third poll with a zero interval and try a zero timeout; other interleavings of approval, timeout changes, polls and clock readings are not covered.", "anchors": ["resim/auth/testing/mock_device_code_server.cc: MockDeviceCodeServer, set_browser_auth_complete, set_timeout_s", "resim/auth/device_code_client.cc: get_jwt, load_token, fetch_token, save_token"]}
{"id": "C79", "title": "Segments of time curves of poses in double precision", "statement": "Let two poses with their velocities and accelerations have rotations at most three radians apart, be at most b from the origin, and have angular parts of at most m and translation parts of at most m*b, per normalised time. There is exactly one pose at every time that a TCurveSegment between them stands for; it starts with the one and ends with the other, every point carried along moves with the velocity given, and the acceleration is the derivative of the velocity. If the two ends are stored with rotations within e (Frobenius), angular parts within e*m, translations within e*b and translation parts within e*m*b, (1 + m)*(e + 100u) <= 1e-5, u = 2^-53, and b is from 2^-400 to 2^450, then point_at(t) of the segment is, for every finite t from 0 to 1, within 79*(1 + m)*(e + 100u) of that pose's rotation, 340*(1 + m)^2*(e + 100u) and 2560*(1 + m)^3*(e + 100u) of the angular velocity and acceleration, 576*(1 + m)^2*(e + 100u)*b of its translation, and 1780*(1 + m)^3*(e + 100u)*b and 14600*(1 + m)^4*(e + 100u)*b of the translation parts of its velocity and acceleration. In particular point_at(0) and point_at(1) are that near the two ends.", "quantifier": "For every two poses with velocities and accelerations, every pair of stored two-jets that near to them, every time, every sine, cosine and arctangent accurate to a unit in the last place, and either order in which Eigen may add three terms.", "why_tests_cant": "Tests compare segments between a few random two-jets with finite differences, to about 1e-7, and check the ends; how the errors of the five exponentials, the logarithm, the products and the polynomials spread into poses, velocities and accelerations for all ends and times is beyond them.", "anchors": ["resim/curves/t_curve_segment.cc: TCurveSegment::point_at", "resim/curves/two_jet.cc: TwoJetL::operator*, identity", "resim/transforms/se3.cc: SE3::exp, log, inverse, operator*, adjoint_times"]}
{"id": "C80", "title": "Time curves of poses in double precision", "statement": "Let two or more poses with velocities and accelerations follow each other at increasing times, their rotations one to the next at most three radians apart. There is exactly one exact journey: one pose at every time from the first to the last, through all control points, on which every point carried along moves with the velocity given and the acceleration is the derivative of the velocity, at the control points too. TCurve<SE3>(points) throws exactly when a time is not after the one before. If all times are stored exactly, all control points are at most r from the origin, r from 2^-400 to 2^200, on every piece (of length d from 2^-100 to 2^100) both ends have angular velocities of at most m/d, angular accelerations of at most m/d^2, and translation parts of at most m*r/d and m*r/d^2, all of them stored within e times these bounds (rotations within e, translations within e*r), u <= m, and (1 + m)*(e + 105u) <= 1e-5, u = 2^-53, then point_at(t) for every finite t from the first to the last time returns a two-jet within 79*(1 + m)*(e + 105u) of the exact rotation, 341*(1 + m)^2*(e + 105u)/d and 2565*(1 + m)^3*(e + 105u)/d^2 of the angular velocity and acceleration, 576*(1 + m)^2*(e + 105u)*r of the translation, and 1781*(1 + m)^3*(e + 105u)*r/d and 14620*(1 + m)^4*(e + 105u)*r/d^2 of the translation parts, where d is the length of the piece; in particular every control point comes back that near. Before the first time, after the last, and with fewer than two control points point_at throws. That it refuses all times outside the range is false: a time that is not a number is answered with a velocity and an acceleration that hold no numbers.", "quantifier": "For every list of control points, stored that near, every query time, every sine, cosine and arctangent accurate to a unit in the last place, and either order in which Eigen may add three terms.", "why_tests_cant": "Tests build a few curves with random control points and check the control points and finite differences to about 1e-7 at some times; that times are normalised, looked up and scaled back without losing accuracy for all piece lengths, distances, speeds and times is beyond them.", "anchors": ["resim/curves/t_curve.cc: TCurve, append, point_at, point_at_impl, unnormalize_derivatives", "resim/curves/t_curve_segment.cc: TCurveSegment::point_at", "resim/curves/two_jet.cc: TwoJetL::operator*", "resim/transforms/se3.cc: SE3::exp, log, inverse, operator*, adjoint_times"]}
{"id": "C81", "title": "Trajectories in double precision", "statement": "Let two or more rides (how a body is turned, where it is, its angular velocity and its velocity as seen from the body, and their derivatives) follow each other at increasing times, one to the next turned at most three radians. There is exactly one exact trajectory: one ride at every time from the first to the last, through all control points, on which every point of the body moves with the velocities given, which change at the rates given, at the control points too. The time of a timestamp is its distance from the first timestamp in seconds as a double, off by at most 3u of itself, u = 2^-53; within 97 days (2^23 seconds) of the start different timestamps have different times. If no distance overflows, Trajectory(points) throws exactly when a time is not after the one before. If all points are at most r from the origin (2^-400 <= r <= 2^200), on every leg (of length d) both ends have angular velocities of at most m/d, velocities of at most m*r/d, and their derivatives are at most m/d^2 and m*r/d^2, all stored with relative errors e, u <= m, and (1 + m)*(3e + 112u) <= 1e-5, then point_at(t) for every timestamp from the first to the last returns a state within 79*(1 + m)*(3e + 112u) of the exact rotation, 1036*(1 + m)^2*(3e + 112u)*r of the position, 341*(1 + m)^2*(3e + 112u)/d and 1781*(1 + m)^3*(3e + 112u)*r/d of the velocities and 2565*(1 + m)^3*(3e + 112u)/d^2 and 14620*(1 + m)^4*(3e + 112u)*r/d^2 of their derivatives, where d is the length of the leg; in particular the state of every control point comes back that near at its own timestamp. point_at(Duration) is point_at of the first timestamp plus the duration. It throws before the start, after the end and with fewer than two points; point_at of a timestamp whose distance from the first is no int64 is undefined.", "quantifier": "For every list of control points, stored that near, every query timestamp and duration, every sine, cosine and arctangent accurate to a unit in the last place, and either order in which Eigen may add three terms.", "why_tests_cant": "Tests build a trajectory from a few states and compare the states at the control points; that inverting poses, converting timestamps and moving derivatives between the two sides keeps all states accurate between the control points, for all speeds, distances and time spans, is beyond them.", "anchors": ["resim/actor/state/trajectory.cc: Trajectory, append, point_at", "resim/curves/two_jet.cc: left_two_jet, right_two_jet", "resim/time/timestamp.hh: as_seconds", "resim/transforms/se3.cc: SE3::inverse"]}
{"id": "C82", "title": "Sample statistics in double precision", "statement": "Let u = 2^-53 and let the rows of a matrix of finite doubles be n samples. Adding n doubles in any order and grouping gives a sum off by at most (n - 1)*u times the sum of their magnitudes. mean() of 1 to 2^53 samples whose magnitudes add up to at most 2^1000 per column is finite and off by at most (n + 1)*u times the average magnitude of the column, plus 2^-1075. covariance() of fewer than 2^32 samples throws exactly if they are fewer than two. For 2 to 2^32 - 1 samples of magnitudes up to 2^480, entry (i, j) is finite and off by at most 2*m_i*m_j + (n + 4)*u*w_i*w_j + 2^-1073, where m is the above bound for the mean and w the sample standard deviation plus 2m; it differs from entry (j, i) by at most 2*((n + 4)*u*w_i*w_j + 2^-1073); no variance is negative; and y*C*y is never below -((n + 4)*u*(sum of w_i*|y_i|)^2 + 2^-1073*(sum of |y_i|)^2). A Gaussian accepts it, given an exact eigensolver, if it passes the symmetry test and (n + 4)*u*(sum of w_i^2) + 2^-1073*d is below the constructor's tolerance. That the mean of equal samples is that sample or lies between the samples, and that their variance is 0, is false: three samples of 6004799503160662 have mean 6004799503160661 and variance 1.5. That the covariance is positive semi-definite, and that a Gaussian can be made of the covariance of any samples, is false: for two samples of two numbers around 5e8 the constructor throws whatever exact eigensolver it uses.", "quantifier": "For every matrix of samples, every order and grouping in which Eigen may add the terms of each sum, and every direction y.", "why_tests_cant": "Tests compare covariances of random samples with loosely bounded expected values; rounding for all samples, sizes and summation orders, and the few samples for which the results are off or refused, are beyond them.", "anchors": ["resim/math/sample_statistics.hh: mean, covariance", "resim/math/multivariate_gaussian.cc: Gaussian"]}
{"id": "C83", "title": "Composing and inverting moving poses in double precision", "statement": "Let u = 2^-53 and let two moving bodies be stored with relative error e: the rotation within e, positions of up to b within e*b, angular velocities of up to m within e*m, velocities of up to b*m within e*b*m, and the derivatives of these, of up to m times as much, within m times as much; with E = e + 100u at most 1e-5, m from 2^-100 to 2^100 and b from 2^-100 to 2^200. The product of two TwoJetR<SE3> (or RigidBodyState<SE3>) is the state of a body riding on a moving body: within 2.12E (rotation), 3.13E*b (position), 3.13E*m (angular velocity), 7.4E*b*m (velocity), 6.3E*m^2 and 19.1E*b*m^2 (their derivatives). inverse() is the motion of the reference as seen from the body, within 1, 2.11, 2.11, 5.3, 2.11 and 5.3 such units. inverse_times(other) is the motion of the other body as seen from this one, within 2.12, 4.23, 4.23, 13.9, 8.5 and 34.2 units; of a state with itself it is that close to the identity at rest. The product and the inverse of TwoJetL<SE3> are within 2.12, 3.13, 3.13, 6.3, 6.3, 16.9 and 1, 2.11, 2.11, 6.4, 2.11, 6.4 units of the exact ones. Here the exact states have the velocities and accelerations with which every point of the composed or inverted motion really moves, if those of the given ones do. Every result is finite.", "quantifier": "For all stored states within these bounds and all evaluation orders of the sums inside the matrix products; for the exact motions, all differentiable motions, at every time.", "why_tests_cant": "Tests multiply a few random two-jets and compare with approximate equality to the same formulas or to finite differences; they cannot bound the rounding for all states nor show the formulas to be the derivatives of all motions.", "anchors": ["resim/curves/two_jet.cc: TwoJetL::operator*, TwoJetL::inverse, TwoJetR::operator*, TwoJetR::inverse", "resim/actor/state/rigid_body_state.cc: operator*, inverse_times", "resim/transforms/se3.cc: adjoint_times"]}
{"id": "C84", "title": "The time example passes its own checks on every platform", "statement": "Run to its end in double precision, the example program for times prints Hello, ReSim and user! in this order with the times 100, 200 and 200 nanoseconds and exits successfully, whatever the system clock reads and whatever results std::cos and std::sin give within one unit in the last place; only a clock within ten microseconds of the end of 64-bit nanoseconds makes it undefined. More generally, adding up cos(sqrt t) at the times that sample_interval visits from 0 to T, without the last, and multiplying by the step comes out above the true integral by half a step times 1 - cos(sqrt T), up to T times (step squared over 8, a quarter of a nanosecond, and (number of steps + T + 2 sqrt T + 9) roundings), for every T below 2^53 nanoseconds and every step size that takes fewer than 2^31 - 1 steps.", "quantifier": "every clock reading, every end time below 2^53 ns, every step size with fewer than 2^31 - 1 steps, every result of the library functions within one unit in the last place, every rounding of the sum", "why_tests_cant": "Running the example shows one clock reading and one mathematics library; the margin of its last check depends on three hundred thousand roundings and on the library, and the general error law concerns every length and step size.", "anchors": ["resim/examples/time.cc:28-102", "resim/time/sample_interval.cc:52-125", "resim/time/event_schedule.hh:84-108", "resim/time/timestamp.hh:25-55"]}
{"id": "C85", "title": "Approximate equality decides rightly in double precision, and the round trips of the Lie groups pass it", "statement": "In double precision, with the squares added in any order, is_approx of rotations, of poses and of vectors gives the same answer whichever of the two comes first, and says yes to a thing and itself just if all its numbers are finite. For vectors no longer than 2^490 and no shorter than 2^-400 it says yes if they are less than 10^-12 of the shorter apart and no if they are more, up to sixteen roundings; stored rotations are decided by the distance of the rotations they stand for, at 1.732 to 1.733 times 10^-12, and two ways of composing the same rotations are found alike as long as their accumulated errors stay within that. exp of log, interp(0) and interp(1) are always found alike to the original (or the identity) for every rotation stored within 1.8 * 10^-13 and every pose with such a rotation and any translation up to 2^489; exp of the negated vector to the inverse; log of exp to the vector if it is between 0.15 and 3 radians. Compared with the zero vector only vectors whose squares round to zero are found alike, so a pose times its inverse need not be is_approx the identity. It is not transitive, and any two finite vectors with an entry of 2^512 or more each are found alike, even opposite ones.", "quantifier": "all doubles, all orders of summation, all stored rotations and poses within the stated error, all compositions", "why_tests_cant": "Tests compare a few dozen random elements with one build of Eigen; that no element fails, that the answer is symmetric on all bit patterns and where the comparison stops meaning anything are statements about all of them.", "anchors": ["resim/transforms/so3.cc:131-138", "resim/transforms/se3.cc:206-214", "resim/transforms/liegroup_test.cc:35-102", "resim/transforms/se3.cc:53-58"]}
{"id": "C86", "title": "What the examples of the robot and of the drone show", "statement": "Example 00 builds the pose turned by a quarter turn about z at (1, 0, 1). Example 01, with any three frames that are not null, builds the poses of the robot and of the sensor; their composition puts the sensor at (1, 0.1, 1.1), turned by a quarter, between the world and the sensor frame; the composition that the example calls invalid throws if robot and sensor frame differ, and is accepted if they are the same. Example 04, with any two frames that are not null, builds a trajectory that starts at the epoch, ends at exactly 33 s, answers every time from the start to the end with a genuine pose in the two frames, and throws at any other; it passes (0, -3, 0) moving along x at 5 m/s, (8, 0, 0) moving along y at 7 m/s, turning left at sqrt(7/150) rad/s with the z axis of the body pointing to the inside of the bend, and (0, 3, 0) moving along -x at 5 m/s. The comment that it returns to its start location is false: it ends 6 m away. A body that moves at v along its x axis and turns at sqrt(v/r) about its y axis turns about an axis at the distance sqrt(v r): so the radius of the bend is between 32 and 33 m and not TURN_R_M = 150 m, because the example takes the square root of v/r.", "quantifier": "all frames, all query times, all speeds and radii", "why_tests_cant": "The examples are not run by any test; the frames are drawn at random, the query times are unbounded, and that a stated radius is not the radius of the motion is only seen by computing the axis of rotation.", "anchors": ["resim/visualization/examples/example_00_rigid_transform.cc:16-47", "resim/visualization/examples/example_01_framed_transform_composition.cc:46-98", "resim/visualization/examples/example_04_actor_trajectory.cc:35-93"]}
{"id": "C87", "title": "Adjoints, brackets and distances in double precision", "statement": "In double precision, Eigen's sums taken in any order: the Lie brackets SO3::adjoint_times(a, b) and SE3::adjoint_times(a, b) are exactly the opposites of those with a and b exchanged, entry by entry, for all doubles, so the check that their sum is zero passes exactly if the bracket is finite, and it is if no entry is over 2^490. The bracket of an element with itself has only zeros and NaN for entries, only zeros up to 2^490, and NaN for some finite elements. SO3::adjoint(a) * b has the values of the bracket whenever b is finite; SE3::adjoint(a) * b is within 40 units in the last place of the products of it, and the check of 1e-9 passes with entries up to 400. Both g.adjoint_times(alg) and g.adjoint() * alg of a pose are within stated bounds of the exact adjoint action of the stored numbers, and isApprox holds of them for translations up to 25. Composing rotations directly and by the adjoint action on a logarithm gives is_approx rotations if the stored ones are within 8e-14 of rotations, and a rotation's adjoint action on its own logarithm is isApprox to no action for angles from 1/5 to 3. se3_distance and se3_inverse_distance are symmetric, zero for equal translations, within 4 units in the last place of the true distance from 2^-480 up, zero for translations that differ by up to 2^-538 in each entry, and infinite for ones that differ by 2^512 in one; so distance zero does not mean equal translations.", "quantifier": "all doubles for brackets; all stored poses, tangent vectors and orders of summation within the stated ranges", "why_tests_cant": "The checks run on a few random vectors of ordinary size; that the brackets cancel exactly, in every order and for NaN and infinities, and where the tolerance begins to fail, is not seen by samples.", "anchors": ["resim/transforms/so3.cc:115-131", "resim/transforms/se3.cc:160-205", "resim/transforms/se3.cc:267-275", "resim/transforms/cross_matrix.cc:11-19", "resim/transforms/liegroup_test.cc:91-148"]}
{"id": "C88", "title": "Gaussians in double precision", "statement": "In double precision, Eigen's sums taken in any order and its solver left open: the constructor of Gaussian always has a result; it throws if mean and covariance do not agree in size and reaches undefined behaviour for an empty mean. It throws if an entry of the covariance is NaN, one on the diagonal is infinite, two mirrored entries are the same infinity, a matrix of up to 1024 dimensions and ordinary entries is less symmetric than one part in 10^12, the solver reports a numerical issue, or an eigenvalue is below minus the tolerance by four units in the last place. It makes a Gaussian if the covariance is finite and symmetric and the eigenvalues are not negative, or above minus the tolerance by as much. But it also accepts covariances with an infinite entry whose mirror image is another number, antisymmetric ones with entries of 2^512 and more, and a diagonal one with the entry -2^1023, since tolerance and sums of squares overflow. A Gaussian holds the mean, the covariance, the solver's eigenvectors, its eigenvalues with negative ones replaced by zero and their roots to one unit in the last place; the covariance of what it samples is off by no more than the solver's decomposition, the rounding of the roots and the tolerance. Each entry of a sample is mean plus draws times roots times eigenvectors, up to n + 6 units in the last place of the terms.", "quantifier": "all means, covariances and results of the solver within the stated ranges, all draws up to 1024 from zero, all orders of summation", "why_tests_cant": "The tests use random covariances of 3, 6 and 18 dimensions at three ordinary scales; they do not see infinities, overflowing tolerances or how rounding grows with the dimension, and compare the statistics of samples with wide margins.", "anchors": ["resim/math/multivariate_gaussian.cc:19-72", "resim/math/multivariate_gaussian.hh:17-90"]}
{"id": "C89", "title": "The test elements of the Lie groups, and the tests over them, for every generator", "statement": "make_test_vectors, make_test_algebra_elements and make_test_group_elements throw when asked for less than seven elements, give exactly as many as asked for up to 2^31 - 1, and overflow an int from 2^31 on. The elements are zero, ones, minus ones, a large one, a tiny one and then drawn ones, each number drawn used once and in order; the group elements are their exponentials, in order. Whatever the generator gives from -1 to 1, every rotation vector is shorter than a half turn and every translation has entries up to 10^6. In double precision, whatever sin, cos and atan2 give within their error and however Eigen orders its sums, the tests construction, inverse against negative algebra element, interpolation at 0 and 1, exp of zero, log of identity, exp of log, adjoint matrix against adjoint_times of algebra elements, and anticommutativity pass for all elements of SO3 and SE3; for SO3 also composition by adjoint and adjoint times on the group, over all pairs. The test that tells the first element from the others passes if every rotation vector drawn has an entry of at least 10^-5. But the elements are not guaranteed to be unique: with a generator that gives zeros two are equal, and that test fails.", "quantifier": "all generators of numbers from -1 to 1 with any state, all seeds, all counts, all elements and pairs of elements, all permitted results of the C library and orders of summation", "why_tests_cant": "The tests run with one seed, seven elements and one C library; that they pass says nothing about other seeds, counts or platforms, and nothing tests counts of 2^31 and more.", "anchors": ["resim/transforms/liegroup_test_helpers.cc:26-102", "resim/testing/random_matrix.hh:23-60", "resim/transforms/liegroup_test.cc:36-164"]}
{"id": "C90", "title": "Jets, curves, payloads and primitives made for the tests, for every generator", "statement": "make_test_two_jet_elements(count) throws for a count below 7 and gives count jets for 7 <= count < 2^31 (from 2^31 on the int counter overflows, which is undefined); in every jet the velocity and the acceleration are the same vector, the test vector of that index, and the pose is its exponential, between the frames INTO_FRAME and FROM_FRAME. make_test_two_jet() uses three vectors drawn one after the other: the first for the pose, the others for velocity and acceleration in an order left to the compiler. TCurveTestHelper::make_t_curve(times, framed) makes a curve exactly when every time is less than the next (so a single NaN is accepted, and NaN among others is not) and throws otherwise; the curve has one control point per time, in order, in the frames POINT_FRAME and REF_FRAME or in none. The points of DCurveCircle make three quarters of the unit circle, of length 3 pi / 2 and facing outwards, and the whole circle when the first is appended again. generate_payload_type gives count payloads for 7 <= count < 2^31 and throws below 7, except for FramedVector, for which every count below 2^31 is served: frames are new and all different, poses are the exponentials of the test vectors with two new frames each or none, distance curves are all the same circle (the first one empty when unframed), time curves and trajectories are all the same circle (trajectories framed whatever is asked for), and vectors are all the same vector in new frames. generate_test_primitive makes the id first, then the payload, with the name given, file test_file_name and line 42; the test time curve is always accepted, with ten poses at the times 0 to 9 exactly.", "quantifier": "for all generators, seeds and states, all exponential maps, all counts, all lists of times (infinities and NaN included), both orders of evaluation and all sequences of new ids that are not null", "why_tests_cant": "The tests use one seed, one compiler's order of evaluation and a few counts; they do not look at whether velocity and acceleration differ, nor at counts whose loops overflow.", "anchors": ["resim/curves/two_jet_test_helpers.cc:39-73", "resim/curves/t_curve_test_helpers.cc:31-48", "resim/curves/d_curve_test_helpers.cc:22-48", "resim/visualization/view_server/view_server_test_helper.cc:38-180", "resim/visualization/proto/view_primitive_test_helper.cc:38-129"]}
{"id": "C91", "title": "Test directories leave the file system as it was", "statement": "TestDirectoryRAII makes the directory named by a new id in the temporary directory exactly when that is a directory and nothing has the name yet, changes nothing else, and throws otherwise. For every test that makes such directories in nested blocks, changes what is beneath the ones it holds in any way, changes the current directory, asks for file paths and throws or not: if the path of the temporary directory is absolute, the file system afterwards is what it was before, even when ids repeat; what is beneath a held directory is not disturbed by others being made, changed and destroyed; and a test that does not throw itself comes to its end if the ids differ and are not taken. With a relative temporary path, a test that changes the current directory leaves its directory behind. test_file_path(extension) gives a place directly in the directory, named by a new id and, behind a dot, the extension if it is not empty, whenever the extension has no slash; paths with different ids differ whatever the extensions. With slashes in the extension the path can lie outside the directory.", "quantifier": "for all file systems in which whatever is there is in a directory, all temporary paths, all programs over nested blocks, all sequences of ids, all extensions", "why_tests_cant": "The tests make one or two directories, without exceptions, without nesting, in one temporary directory and with the extensions foo and none.", "anchors": ["resim/testing/test_directory.cc:16-32", "resim/testing/test_directory.hh:13-40"]}
{"id": "C92", "title": "What MoveCopyTracker counts", "statement": "After any sequence of constructions, copies, moves and assignments of MoveCopyTracker objects, self-assignment included, num_moves() and num_copies() of each object are exactly how often a move and a copy lie on the way from the default construction it goes back to: an object takes over the numbers of the one it is made or assigned from and adds one. As long as objects are made before they are used, the only thing that goes wrong is the overflow of an int, and it happens exactly when one of the two numbers passes 2^31 - 1. The object copied or moved from does not count it, and the numbers an object had before an assignment are lost.", "quantifier": "for all programs over any number of objects, of any length", "why_tests_cant": "The test makes one copy and one move of each kind; it does not follow chains of them, self-assignments or overflow.", "anchors": ["resim/testing/move_copy_tracker.cc:11-31", "resim/testing/move_copy_tracker.hh:17-38"]}
{"id": "C93", "title": "The life of the mock server and its replies", "statement": "A testing::MockServer comes to its end properly exactly when listen() was called once, a port could be bound, all receivers were added before and only requests came in between and after. Destroying one that never listened is undefined behaviour, and so is listen() when no port can be bound; a second listen() terminates the program; no use throws, so the check Failed to setup server never fails. From listen() on every request is answered until any client gets /stop; from then on none is. A post is answered by the first receiver added whose pattern matches the path: it is called with the concatenation of the chunks of the body however it was cut up, and with a copy of the headers that has for every name, upper and lower case told apart, the same entries in the same order. The client gets the body, type and status that the receiver set, 500 if it threw, 404 if no receiver matches, and 200 if the receiver left the status at its default INVALID. There is exactly one such reply.", "quantifier": "for all sequences of additions, listen(), requests and destruction, all receivers, patterns, headers and chunks of a body", "why_tests_cant": "The tests use servers that listen once, with receivers that always set a status and bodies that come in one piece; misuse would crash the test program.", "anchors": ["resim/testing/mock_server.cc:24-98", "resim/testing/mock_server.hh:29-77", "resim/utils/http_response.hh:11-18"]}
{"id": "C94", "title": "Random durations and the tests that draw them", "statement": "time::random_duration of a std::mt19937 uses up exactly two words of the generator, which are the high and low digits of the distance of the duration from the shortest one; every one of the 2^64 durations is made by exactly one pair of words, so it is uniform if the pairs are. TestToSecondsAndNanos and TestFromSecondsAndNanos pass whatever is drawn, with no overflow. What TestAsSeconds and TestAsDuration expect (that converting to seconds and back changes a duration by at most epsilon times itself, cut to whole nanoseconds) holds of every duration d with |d| >= 2^52 ns (52 days) from -(2^63 - 2047) to 2^63 - 2048; of the 4094 others of that length it is undefined behaviour; and of a shorter one it holds exactly if it comes back unchanged. So these tests pass if all draws are of the first kind and are undefined exactly if one is of the second. That they pass for any seed is false: 15 ns fails them.", "quantifier": "for all generators of 32-bit words, their states, numbers of draws and all 2^64 durations", "why_tests_cant": "The tests run with one seed each, which happens to draw no short and no extreme durations that matter.", "anchors": ["resim/time/random_duration.hh:20-26", "resim/time/timestamp_test.cc:27-115", "resim/time/timestamp.hh: as_seconds, as_duration"]}
