{"id": "C01", "title": "Period and semimajor axis are mutually inverse (Kepler's third law)", "statement": "For positive gravitational parameter, a_from_period undoes orb_period on every positive semimajor axis and orb_period undoes a_from_period on every positive period; the mean motion of the period satisfies n**2 * a**3 = mu; the elliptic mean anomaly accumulated over one period is exactly one revolution.", "quantifier": "all a > 0, all P > 0, all mu > 0", "why_tests_cant": "the law is an identity over a continuum of (a, mu); examples only sample it and the source docstring of a_from_period even shows another formula", "anchors": ["src/astrodynx/twobody/_orb_integrals.py:orb_period", "src/astrodynx/twobody/_orb_integrals.py:a_from_period", "src/astrodynx/twobody/_orb_integrals.py:mean_motion", "src/astrodynx/twobody/_kep_equ.py:mean_anomaly_elps"]}
{"id": "C02", "title": "Size, shape and energy computed from a state agree with each other", "statement": "For every state with non-zero position and non-zero energy, the semimajor axis a, the semiparameter p of the angular momentum and the length e of the eccentricity vector satisfy p = semipara_from_ae(a, e) and a = a_from_pe(p, e) (the latter when e != 1); e < 1 exactly when a > 0 and e > 1 exactly when a < 0 for non-rectilinear orbits, and at zero energy e = 1.", "quantifier": "all position and velocity vectors with r != 0, all mu > 0", "why_tests_cant": "relates four independently coded functions on a 7-dimensional input space", "anchors": ["src/astrodynx/twobody/_orb_integrals.py:semimajor_axis", "src/astrodynx/twobody/_orb_integrals.py:eccentricity_vector", "src/astrodynx/twobody/_orb_integrals.py:semiparameter", "src/astrodynx/twobody/_orb_integrals.py:semipara_from_ae", "src/astrodynx/twobody/_orb_integrals.py:a_from_pe", "src/astrodynx/twobody/_orb_integrals.py:angular_momentum"]}
{"id": "C03", "title": "The eccentricity vector points to periapsis and obeys the orbit equation", "statement": "For every state with r != 0: the angular momentum vector is orthogonal to position, velocity and eccentricity vector; the dot product of eccentricity vector and position equals p - |r|; hence with the library's own true anomaly f, equ_of_orbit(p, e, f) returns exactly |r|.", "quantifier": "all states with r != 0 (and non-zero h, e for the last part), all mu > 0", "why_tests_cant": "a pointwise geometric identity over all states, combining vector formulas, arctan2 and the conic equation", "anchors": ["src/astrodynx/twobody/_orb_integrals.py:eccentricity_vector", "src/astrodynx/twobody/_orb_integrals.py:equ_of_orbit", "src/astrodynx/twobody/_orb_integrals.py:semiparameter", "src/astrodynx/twobody/_orb_elements.py:true_anomaly"]}
{"id": "C04", "title": "Periapsis and apoapsis radii bound every radius of the orbit and are attained", "statement": "radius_periapsis(p, e) <= |r| for every state on the orbit and, on a closed orbit, |r| <= radius_apoapsis(p, e); equ_of_orbit attains the two bounds at f = 0 and f = pi, takes no other value below or above, and on a closed orbit the two radii sum to twice the semimajor axis.", "quantifier": "all states with r != 0, h != 0; all p > 0, 0 <= e, all true anomalies with 1 + e cos f > 0", "why_tests_cant": "bound over all orbit points, not finitely many", "anchors": ["src/astrodynx/twobody/_orb_integrals.py:radius_periapsis", "src/astrodynx/twobody/_orb_integrals.py:radius_apoapsis", "src/astrodynx/twobody/_orb_integrals.py:equ_of_orbit"]}
{"id": "C05", "title": "Semiparameter and semimajor axis conversions are mutually inverse", "statement": "a_from_pe(semipara_from_ae(a, e), e) = a and semipara_from_ae(a_from_pe(p, e), e) = p for every e with e**2 != 1; and the periapsis and apoapsis radii computed from them are a(1-e) and a(1+e).", "quantifier": "all a, p, e with e**2 != 1", "why_tests_cant": "identity over a continuum, singular at e = 1", "anchors": ["src/astrodynx/twobody/_orb_integrals.py:a_from_pe", "src/astrodynx/twobody/_orb_integrals.py:semipara_from_ae", "src/astrodynx/twobody/_orb_integrals.py:radius_periapsis", "src/astrodynx/twobody/_orb_integrals.py:radius_apoapsis"]}
{"id": "C06", "title": "Universal functions are one analytic family, whatever branch is taken", "statement": "Each ufunc_n(chi, alpha), n = 0..5, equals the everywhere convergent series sum_k (-alpha)**k chi**(2k+n)/(2k+n)!, whichever of the three branches (alpha > 0, < 0, = 0) computes it; in particular the three branches join continuously and differentiably at alpha = 0.", "quantifier": "all real chi, all real alpha, n = 0..5", "why_tests_cant": "the join at alpha = 0 concerns a limit; tests evaluate isolated alphas on each branch", "anchors": ["src/astrodynx/twobody/_uniformulas.py:ufunc0", "src/astrodynx/twobody/_uniformulas.py:ufunc1", "src/astrodynx/twobody/_uniformulas.py:ufunc2", "src/astrodynx/twobody/_uniformulas.py:ufunc3", "src/astrodynx/twobody/_uniformulas.py:ufunc4", "src/astrodynx/twobody/_uniformulas.py:ufunc5"]}
{"id": "C07", "title": "Universal functions differentiate into each other", "statement": "d/dchi ufunc_n = ufunc_{n-1} for n = 1..5, d/dchi ufunc0 = -alpha ufunc1, and d/dalpha ufunc_n = (n ufunc_{n+2} - chi ufunc_{n+1})/2 for n = 0..3, at every point including alpha = 0.", "quantifier": "all chi, all alpha", "why_tests_cant": "derivative statements about functions; used implicitly by Newton iteration and by the state transition matrix", "anchors": ["src/astrodynx/twobody/_uniformulas.py:ufunc0", "src/astrodynx/twobody/_uniformulas.py:ufunc1", "src/astrodynx/twobody/_uniformulas.py:ufunc2", "src/astrodynx/twobody/_uniformulas.py:ufunc3", "src/astrodynx/twobody/_uniformulas.py:ufunc4", "src/astrodynx/twobody/_uniformulas.py:ufunc5", "src/astrodynx/twobody/_kep_equ.py:dchi"]}
{"id": "C08", "title": "Algebraic identities of the universal functions", "statement": "ufunc_n + alpha ufunc_{n+2} = chi**n/n! for n = 0..3, ufunc0**2 + alpha ufunc1**2 = 1, ufunc1**2 = ufunc2 (1 + ufunc0), and the addition formulas for ufunc0..ufunc3 of a sum of anomalies.", "quantifier": "all chi, psi, alpha", "why_tests_cant": "identities over a continuum on three separately coded branches", "anchors": ["src/astrodynx/twobody/_uniformulas.py:ufunc0", "src/astrodynx/twobody/_uniformulas.py:ufunc1", "src/astrodynx/twobody/_uniformulas.py:ufunc2", "src/astrodynx/twobody/_uniformulas.py:ufunc3", "src/astrodynx/twobody/_uniformulas.py:ufunc4", "src/astrodynx/twobody/_uniformulas.py:ufunc5"]}
{"id": "C09", "title": "Universal functions have the parity and unit scaling of a generalized anomaly", "statement": "ufunc_n(-chi, alpha) = (-1)**n ufunc_n(chi, alpha), ufunc_n(0, alpha) is 1 for n = 0 and 0 otherwise, and ufunc_n(k chi, alpha/k**2) = k**n ufunc_n(chi, alpha) for k > 0.", "quantifier": "all chi, alpha, k > 0, n = 0..5", "why_tests_cant": "forward/backward symmetry and unit independence hold or fail over all inputs", "anchors": ["src/astrodynx/twobody/_uniformulas.py:ufunc0", "src/astrodynx/twobody/_uniformulas.py:ufunc1", "src/astrodynx/twobody/_uniformulas.py:ufunc2", "src/astrodynx/twobody/_uniformulas.py:ufunc3", "src/astrodynx/twobody/_uniformulas.py:ufunc4", "src/astrodynx/twobody/_uniformulas.py:ufunc5"]}
{"id": "C10", "title": "The Lagrange coefficients form an area preserving map", "statement": "For coefficients evaluated at any generalized anomaly chi with the radius of the orbit equation, F*Gt - G*Ft = 1, for the orbit's own alpha = 2/r0 - v0**2/mu.", "quantifier": "all chi, all states with r0 > 0, mu > 0 and non-zero propagated radius", "why_tests_cant": "the identity must hold for every chi, converged or not", "anchors": ["src/astrodynx/twobody/_lagrange.py:lagrange_F", "src/astrodynx/twobody/_lagrange.py:lagrange_G", "src/astrodynx/twobody/_lagrange.py:lagrange_Ft", "src/astrodynx/twobody/_lagrange.py:lagrange_Gt", "src/astrodynx/prop/_kepler.py:_lagrange_prop"]}
{"id": "C11", "title": "kepler conserves angular momentum, energy and eccentricity vector at every output", "statement": "Every (r, v) row returned by kepler has exactly the initial angular momentum vector, the initial semimajor axis (energy) and the initial eccentricity vector, whether or not the internal root finder has converged.", "quantifier": "all lists of times, all initial states with r0 != 0 and h != 0 and non-zero energy, all mu > 0", "why_tests_cant": "conservation for every time and state including those where the solver stops early", "anchors": ["src/astrodynx/prop/_kepler.py:kepler", "src/astrodynx/prop/_kepler.py:_lagrange_prop", "src/astrodynx/twobody/_kep_equ.py:solve_kepler_uni", "src/astrodynx/twobody/_orb_integrals.py:eccentricity_vector", "src/astrodynx/twobody/_orb_integrals.py:angular_momentum", "src/astrodynx/twobody/_orb_integrals.py:semimajor_axis"]}
{"id": "C12", "title": "kepler never divides by zero: the propagated radius is positive and is the length of the returned position", "statement": "For a non-rectilinear initial state the radius used inside the propagation is at least p/(1+e) > 0 at every generalized anomaly, and equals the Euclidean norm of the returned position vector.", "quantifier": "all chi, all initial states with h != 0, mu > 0", "why_tests_cant": "a positivity bound over all anomalies", "anchors": ["src/astrodynx/prop/_kepler.py:kepler", "src/astrodynx/twobody/_orb_integrals.py:equ_of_orb_uvi", "src/astrodynx/twobody/_orb_integrals.py:radius_periapsis"]}
{"id": "C13", "title": "kepler at elapsed time zero returns the initial state", "statement": "kepler([0], r0, v0, mu) returns exactly r0 and v0, for any state and regardless of other times in the batch.", "quantifier": "all states with r0 != 0, all mu > 0, all batches containing 0", "why_tests_cant": "must hold for every state and batch", "anchors": ["src/astrodynx/prop/_kepler.py:kepler", "src/astrodynx/twobody/_kep_equ.py:solve_kepler_uni"]}
{"id": "C14", "title": "kepler outputs satisfy Newton's equation of motion", "statement": "There is a curve (r(t), v(t)), defined for all real t, that starts at the initial state, has r' = v and v' = -mu r/|r|**3 at every time, and passes through every row returned by kepler: row i equals the curve at a time within tol/sqrt(mu) of ts[i] whenever the root finder's residual for that entry is at most tol. The curve is the only solution of the two-body equation from that state.", "quantifier": "all times, all initial states with h != 0 and finite non-zero energy, all mu > 0", "why_tests_cant": "differential equation and uniqueness: infinitely many times and states", "anchors": ["src/astrodynx/prop/_kepler.py:kepler", "src/astrodynx/twobody/_kep_equ.py:kepler_equ_uni", "src/astrodynx/twobody/_kep_equ.py:solve_kepler_uni"]}
{"id": "C15", "title": "Propagation composes and is reversible", "statement": "The exact two-body state map behind kepler satisfies: propagating by t1 and then t2 equals propagating by t1 + t2, and propagating by t and then -t returns the initial state.", "quantifier": "all t1, t2, all initial states with h != 0, all mu > 0", "why_tests_cant": "group law over all pairs of times", "anchors": ["src/astrodynx/prop/_kepler.py:kepler", "src/astrodynx/twobody/_kep_equ.py:kepler_equ_uni"]}
{"id": "C16", "title": "The universal Kepler equation has exactly one solution", "statement": "For every non-rectilinear state and every elapsed time there is exactly one generalized anomaly with kepler_equ_uni = 0; the residual is strictly increasing in chi with derivative dchi equal to the radius.", "quantifier": "all deltat, all states with h != 0, mu > 0", "why_tests_cant": "existence and uniqueness over the reals", "anchors": ["src/astrodynx/twobody/_kep_equ.py:kepler_equ_uni", "src/astrodynx/twobody/_kep_equ.py:dchi"]}
{"id": "C17", "title": "generalized_anomaly recovers the generalized anomaly from end states", "statement": "If (r, v) is the state kepler computes for generalized anomaly chi and elapsed time t satisfies the universal Kepler equation, generalized_anomaly(alpha, sigma(r, v), sigma(r0, v0), t, mu) = chi; if it satisfies it with residual d, the result is off by exactly alpha*d in the documented direction.", "quantifier": "all chi, t, states with h != 0", "why_tests_cant": "algebraic inversion over a continuum", "anchors": ["src/astrodynx/twobody/_kep_equ.py:generalized_anomaly", "src/astrodynx/twobody/_uniformulas.py:sigma_fn", "src/astrodynx/prop/_kepler.py:kepler"]}
{"id": "C18", "title": "dxdx0 is the Jacobian of the two-body flow", "statement": "For end states related by exact two-body motion, the four blocks returned by dxdx0 are the derivatives of the propagated position and velocity with respect to initial position and velocity: along every differentiable one-parameter family of initial states, the derivative of the propagated state equals dxdx0 times the derivative of the initial state.", "quantifier": "all initial states with h != 0, all elapsed times, all directions, mu > 0", "why_tests_cant": "a derivative in six directions at every state; finite differences only sample and approximate", "anchors": ["src/astrodynx/twobody/_state_trans.py:dxdx0", "src/astrodynx/twobody/_state_trans.py:prpr0", "src/astrodynx/twobody/_state_trans.py:prpv0", "src/astrodynx/twobody/_state_trans.py:pvpr0", "src/astrodynx/twobody/_state_trans.py:pvpv0", "src/astrodynx/twobody/_state_trans.py:C_func"]}
{"id": "C19", "title": "dxdx0 is the identity at zero elapsed time and maps the flow field to itself", "statement": "dxdx0(r0, v0, r0, v0, 0, mu) is the 6x6 identity, and for end states related by exact motion dxdx0 maps the initial (velocity, gravity) vector to the final (velocity, gravity) vector.", "quantifier": "all states with r0 != 0, all mu > 0, all times", "why_tests_cant": "universally quantified matrix identity", "anchors": ["src/astrodynx/twobody/_state_trans.py:dxdx0"]}
{"id": "C20", "title": "dxdx0 is symplectic and its inverse is the transition matrix of the reversed motion", "statement": "For end states related by exact motion, Phi^T J Phi = J for the matrix Phi returned by dxdx0.", "quantifier": "all states with h != 0, all times, mu > 0", "why_tests_cant": "6x6 matrix identity over all states", "anchors": ["src/astrodynx/twobody/_state_trans.py:dxdx0"]}
{"id": "C21", "title": "Batched propagation equals one-at-a-time propagation", "statement": "Row i of kepler(ts, ...) depends only on ts[i]: it equals the only row of kepler([ts[i]], ...), for every batch size and whatever iteration counts the other entries need, in whatever floating-point arithmetic the code runs; the number of rows equals the number of times.", "quantifier": "all lists ts of any length, all initial states, all arithmetics", "why_tests_cant": "iteration-count interactions between lanes cannot be enumerated by tests", "anchors": ["src/astrodynx/prop/_kepler.py:kepler", "src/astrodynx/twobody/_kep_equ.py:solve_kepler_uni"]}
{"id": "C22", "title": "The Kepler solvers always terminate and their exit condition is known", "statement": "solve_kepler_elps, solve_kepler_hypb and solve_kepler_uni terminate on every input (NaN and infinities included) after at most max(max_iter, 0) iterations, and on exit either the stated convergence test is satisfied (not > tol) or exactly max_iter steps were made. Called without tol and max_iter they use 1e-6 and 20, 50 and 50.", "quantifier": "all inputs in any arithmetic, all tol, all integers max_iter", "why_tests_cant": "termination on all inputs including NaN", "anchors": ["src/astrodynx/twobody/_kep_equ.py:solve_kepler_elps", "src/astrodynx/twobody/_kep_equ.py:solve_kepler_hypb", "src/astrodynx/twobody/_kep_equ.py:solve_kepler_uni"]}
{"id": "C23", "title": "A converged elliptic solution solves Kepler's equation", "statement": "If solve_kepler_elps stops because successive iterates differ by at most tol (having made at least one step), its result has |kepler_equ_elps| <= e*tol**2/2 and is within e*tol**2/(2(1-e)) of the exact eccentric anomaly.", "quantifier": "all M, 0 <= e < 1, tol > 0, max_iter", "why_tests_cant": "accuracy guarantee over all inputs from a test on iterates only", "anchors": ["src/astrodynx/twobody/_kep_equ.py:solve_kepler_elps", "src/astrodynx/twobody/_kep_equ.py:kepler_equ_elps", "src/astrodynx/twobody/_kep_equ.py:dE"]}
{"id": "C24", "title": "Kepler's elliptic equation has one solution, equivariant under revolutions and reflection, and so is the solver", "statement": "For 0 <= e < 1 there is exactly one E with kepler_equ_elps(E, e, M) = 0; |E - M| <= e; E increases with M; adding 2*pi*k to M adds 2*pi*k to E and negating M negates E; solve_kepler_elps itself commutes with both operations.", "quantifier": "all M, 0 <= e < 1, all integers k", "why_tests_cant": "uniqueness and equivariance over the reals", "anchors": ["src/astrodynx/twobody/_kep_equ.py:solve_kepler_elps", "src/astrodynx/twobody/_kep_equ.py:kepler_equ_elps"]}
{"id": "C25", "title": "Kepler's hyperbolic equation has one solution, odd in the mean anomaly, and so is the solver", "statement": "For e > 1 there is exactly one H with kepler_equ_hypb(H, e, N) = 0; negating N negates H; solve_kepler_hypb negates with N; if the loop exits by its tolerance test the result has residual <= tol and is within tol/(e-1) of the exact anomaly.", "quantifier": "all N, e > 1, tol >= 0, max_iter", "why_tests_cant": "uniqueness and accuracy over all inputs", "anchors": ["src/astrodynx/twobody/_kep_equ.py:solve_kepler_hypb", "src/astrodynx/twobody/_kep_equ.py:kepler_equ_hypb", "src/astrodynx/twobody/_kep_equ.py:dH"]}
{"id": "C26", "title": "solve_kepler_elps converges with default arguments", "statement": "With the default tolerance and iteration limit solve_kepler_elps returns a solution with residual at most 1e-6 for every mean anomaly and every eccentricity in [0, 1).", "quantifier": "all M, all 0 <= e < 1", "why_tests_cant": "convergence near e = 1 and small M depends on a continuum of starts", "anchors": ["src/astrodynx/twobody/_kep_equ.py:solve_kepler_elps"]}
{"id": "C27", "title": "solve_kepler_hypb converges with default arguments", "statement": "With the default tolerance and iteration limit solve_kepler_hypb returns a solution with residual at most 1e-6 for every mean anomaly and every eccentricity above 1.", "quantifier": "all N, all e > 1", "why_tests_cant": "failures sit in a corner (e close to 1) that samples miss", "anchors": ["src/astrodynx/twobody/_kep_equ.py:solve_kepler_hypb"]}
{"id": "C28", "title": "solve_kepler_uni and kepler converge with default arguments", "statement": "With default arguments solve_kepler_uni returns a chi with |kepler_equ_uni| <= 1e-6 for every non-rectilinear state and every elapsed time, so kepler returns the state at the requested time.", "quantifier": "all states with h != 0, all elapsed times", "why_tests_cant": "failures need particular energy/time combinations; no error is raised", "anchors": ["src/astrodynx/twobody/_kep_equ.py:solve_kepler_uni", "src/astrodynx/prop/_kepler.py:kepler"]}
{"id": "C29", "title": "solve_kepler_elps refines its starting guess in single precision", "statement": "Running in float32 with default tolerance, solve_kepler_elps performs Newton steps until successive iterates agree, for every mean anomaly and eccentricity.", "quantifier": "all float32 M and e, any implementation of sin and cos", "why_tests_cant": "a rounding effect that only shows for large anomalies and depends on every libm", "anchors": ["src/astrodynx/twobody/_kep_equ.py:solve_kepler_elps"]}
{"id": "C30", "title": "Rotation matrices are rotations about the named axis", "statement": "rotmat3dx/y/z(angle) are orthogonal with determinant +1, fix their axis, add angles under multiplication, are inverted by negating the angle, are 2*pi periodic, and turn counter-clockwise by the right-hand rule.", "quantifier": "all angles", "why_tests_cant": "continuum of angles", "anchors": ["src/astrodynx/utils/_rot_mat.py:rotmat3dx", "src/astrodynx/utils/_rot_mat.py:rotmat3dy", "src/astrodynx/utils/_rot_mat.py:rotmat3dz"]}
{"id": "C31", "title": "coe2rv produces a state with exactly the requested elements", "statement": "For p > 0, e >= 0, mu > 0 and 1 + e cos f > 0, the state from coe2rv has semiparameter p, eccentricity e, radius equ_of_orbit(p, e, f), angular momentum direction given by inclination and node, radial velocity sqrt(mu/p) e sin f.", "quantifier": "all p > 0, e >= 0, all angles with 1 + e cos f > 0, mu > 0", "why_tests_cant": "7-dimensional input space", "anchors": ["src/astrodynx/twobody/_orb_elements.py:coe2rv", "src/astrodynx/twobody/_orb_integrals.py:semiparameter", "src/astrodynx/twobody/_orb_integrals.py:eccentricity_vector"]}
{"id": "C32", "title": "rv2coe undoes coe2rv", "statement": "For a non-circular, inclined orbit with 0 <= raan, argp, true anomaly < 2*pi and 0 < incl < pi, rv2coe(coe2rv(p, e, incl, raan, argp, f, mu), mu) = (p, e, incl, raan, argp, f).", "quantifier": "all p > 0, e > 0, 0 < incl < pi, raan, argp, f in [0, 2*pi), mu > 0", "why_tests_cant": "round trip over six continuous elements; quadrant errors appear only in parts of the range", "anchors": ["src/astrodynx/twobody/_orb_elements.py:rv2coe", "src/astrodynx/twobody/_orb_elements.py:coe2rv", "src/astrodynx/twobody/_orb_elements.py:true_anomaly", "src/astrodynx/twobody/_orb_elements.py:argument_of_periapsis"]}
{"id": "C33", "title": "coe2rv undoes rv2coe", "statement": "For every state with non-zero angular momentum on a non-circular inclined orbit, coe2rv(*rv2coe(r, v, mu), mu) returns (r, v).", "quantifier": "all states with non-zero h, e and node vector, mu > 0", "why_tests_cant": "round trip over all states; sign information can be lost only on parts of the domain", "anchors": ["src/astrodynx/twobody/_orb_elements.py:rv2coe", "src/astrodynx/twobody/_orb_elements.py:coe2rv"]}
{"id": "C34", "title": "Angles returned by rv2coe lie in their documented ranges", "statement": "Inclination is in [0, pi], right ascension in [0, 2*pi), true anomaly and argument of periapsis in [0, 2*pi); the two latter never exceed pi.", "quantifier": "all states with h != 0", "why_tests_cant": "range over all inputs", "anchors": ["src/astrodynx/twobody/_orb_elements.py:inclination", "src/astrodynx/twobody/_orb_elements.py:right_ascension", "src/astrodynx/twobody/_orb_elements.py:argument_of_periapsis", "src/astrodynx/twobody/_orb_elements.py:true_anomaly"]}
{"id": "C35", "title": "is_short_way decides whether the transfer angle is less than 180 degrees", "statement": "For states on an orbit plane containing the target position, is_short_way(r1, v1, r2) is true exactly when r2 lies at an angle strictly between 0 and pi ahead of r1 in the direction of motion.", "quantifier": "all r1, v1 with h != 0 and all r2 in the orbit plane", "why_tests_cant": "all geometries", "anchors": ["src/astrodynx/twobody/_path_check.py:is_short_way"]}
{"id": "C36", "title": "pass_perigee decides whether the transfer arc contains the perigee", "statement": "For r1 with velocity v1 and target r2 on the same orbit, pass_perigee(r1, v1, r2, mu) is true exactly when the arc travelled from r1 to r2 in the direction of motion passes through periapsis.", "quantifier": "all true anomalies of departure and arrival on all orbits with e > 0", "why_tests_cant": "boundary arcs (half revolution, endpoints at periapsis) are measure zero", "anchors": ["src/astrodynx/twobody/_path_check.py:pass_perigee", "src/astrodynx/twobody/_path_check.py:is_short_way"]}
{"id": "C37", "title": "rp_islower_rmin tells whether the orbit dips below a radius", "statement": "rp_islower_rmin(rmin, r, v, mu) is true exactly when some point of the osculating conic has radius below rmin.", "quantifier": "all states with h != 0, all rmin, mu > 0", "why_tests_cant": "existential over all points of the orbit", "anchors": ["src/astrodynx/twobody/_path_check.py:rp_islower_rmin", "src/astrodynx/twobody/_orb_integrals.py:radius_periapsis"]}
{"id": "C38", "title": "nmax_by_periapsis bounds the revolutions of every admissible transfer", "statement": "Any elliptic orbit through radii r1 and r2 with periapsis at least rp_min that completes N full revolutions within tof has N <= nmax_by_periapsis(rp_min, r1, r2, tof, mu), and the bound is the largest integer whose minimal-orbit periods fit in tof.", "quantifier": "all positive r1, r2, rp_min, tof, mu and all ellipses through both radii", "why_tests_cant": "quantifies over all transfer orbits", "anchors": ["src/astrodynx/twobody/_path_check.py:nmax_by_periapsis", "src/astrodynx/twobody/_orb_integrals.py:orb_period"]}
{"id": "C39", "title": "point_mass_grav is the gradient of mu/r", "statement": "point_mass_grav is the gradient of the potential mu/|r|, points to the origin with magnitude mu/r**2, and is divergence free away from the origin.", "quantifier": "all states with r != 0, all mu", "why_tests_cant": "derivative of a field at all points", "anchors": ["src/astrodynx/gravity/_general.py:point_mass_grav"]}
{"id": "C40", "title": "j2_acc, j3_acc and j4_acc are gradients of the zonal harmonic potentials", "statement": "Each is the gradient of -mu J_n R_eq**n P_n(z/r)/r**(n+1) with P_n the Legendre polynomial, and each is divergence free, hence the potentials are harmonic.", "quantifier": "all states with r != 0, all mu, J_n, R_eq", "why_tests_cant": "coefficient errors in a vector field; tests check single points", "anchors": ["src/astrodynx/gravity/_general.py:j2_acc", "src/astrodynx/gravity/_general.py:j3_acc", "src/astrodynx/gravity/_general.py:j4_acc"]}
{"id": "C41", "title": "Symmetries of the gravity models", "statement": "All four accelerations commute with rotations about the z axis and exert no torque about z; under reflection in the equator point mass, J2 and J4 reflect while J3 reflects with opposite sign; point mass commutes with every rotation.", "quantifier": "all states with r != 0, all angles, all parameters", "why_tests_cant": "symmetry over all rotations", "anchors": ["src/astrodynx/gravity/_general.py:point_mass_grav", "src/astrodynx/gravity/_general.py:j2_acc", "src/astrodynx/gravity/_general.py:j3_acc", "src/astrodynx/gravity/_general.py:j4_acc", "src/astrodynx/utils/_rot_mat.py:rotmat3dz"]}
{"id": "C42", "title": "Force models and events read only what they document", "statement": "The accelerations and radius_islow do not depend on time, on components of the state after the third, or on parameters other than the documented keys; they raise KeyError exactly when a documented key is missing, naming the first missing key. States with one or two components are not rejected: missing components are read as the last one; an empty state raises IndexError.", "quantifier": "all states (length >= 3 for the first part, non-empty for the errors), all parameter dictionaries, any arithmetic", "why_tests_cant": "all dictionaries and state lengths", "anchors": ["src/astrodynx/gravity/_general.py:point_mass_grav", "src/astrodynx/gravity/_general.py:j2_acc", "src/astrodynx/gravity/_general.py:j3_acc", "src/astrodynx/gravity/_general.py:j4_acc", "src/astrodynx/events/radius.py:radius_islow"]}
{"id": "C43", "title": "radius_islow changes sign exactly at the radius threshold", "statement": "radius_islow is negative exactly when the radius is below rmin, zero exactly on the sphere, positive outside, and along any continuous trajectory from outside to inside it has a zero.", "quantifier": "all states, all rmin, all continuous trajectories", "why_tests_cant": "intermediate value over all trajectories", "anchors": ["src/astrodynx/events/radius.py:radius_islow"]}
{"id": "C44", "title": "Cowell wrappers forward the user's problem unchanged", "statement": "fixed_steps, adaptive_steps, custom_steps, to_final and cowell_method call the integrator exactly once with the user's dynamics, initial state, parameters and event, start at t0 = 0 and end at t1, and differ only in step size control and what is saved as documented; the result is the integrator's result. OrbDynx without args means mu = 1 and without event no event.", "quantifier": "all orbit dynamics, all solvers, all arguments, any integrator", "why_tests_cant": "higher-order: all integrators and dynamics", "anchors": ["src/astrodynx/prop/_cowell_method.py:cowell_method", "src/astrodynx/prop/_cowell_method.py:fixed_steps", "src/astrodynx/prop/_cowell_method.py:adaptive_steps", "src/astrodynx/prop/_cowell_method.py:custom_steps", "src/astrodynx/prop/_cowell_method.py:to_final", "src/astrodynx/prop/_cowell_method.py:OrbDynx"]}
{"id": "C45", "title": "kepler does not depend on the choice of axes or units", "statement": "Rotating the initial state rotates every output of kepler; changing units of length and time consistently changes outputs by the same units in the exact map, and rv2coe's shape elements, dxdx0's blocks and the path checks are rotation invariant/equivariant.", "quantifier": "all rotations, all states, all batches, all unit scalings", "why_tests_cant": "all rotation matrices and scales", "anchors": ["src/astrodynx/prop/_kepler.py:kepler", "src/astrodynx/twobody/_orb_elements.py:rv2coe", "src/astrodynx/twobody/_path_check.py:is_short_way", "src/astrodynx/twobody/_path_check.py:pass_perigee", "src/astrodynx/twobody/_path_check.py:rp_islower_rmin"]}
{"id": "C46", "title": "Universal and classical Kepler equations agree", "statement": "For an ellipse (hyperbola) the generalized anomaly divided by sqrt(|a|) is the difference of eccentric (hyperbolic) anomalies, and kepler_equ_uni vanishes exactly when the classical equation advances the mean anomaly by mean_anomaly_elps (mean_anomaly_hypb) of the elapsed time.", "quantifier": "all states with h != 0 and non-zero energy, all times", "why_tests_cant": "relates two independent formulations over all inputs", "anchors": ["src/astrodynx/twobody/_kep_equ.py:kepler_equ_uni", "src/astrodynx/twobody/_kep_equ.py:kepler_equ_elps", "src/astrodynx/twobody/_kep_equ.py:kepler_equ_hypb", "src/astrodynx/twobody/_kep_equ.py:mean_anomaly_elps", "src/astrodynx/twobody/_kep_equ.py:mean_anomaly_hypb"]}
{"id": "C47", "title": "Parabolic and degenerate inputs go through infinities as intended, not silently wrong", "statement": "With IEEE-style division, a zero-energy state has infinite semimajor axis and alpha exactly 0, so kepler takes the parabolic branch and returns the exact parabolic state map; for states with finite non-zero energy and h != 0, no intermediate quantity of kepler is NaN or infinite in exact arithmetic.", "quantifier": "all states including zero energy", "why_tests_cant": "exceptional values on a measure-zero set and their absence everywhere else", "anchors": ["src/astrodynx/prop/_kepler.py:kepler", "src/astrodynx/twobody/_orb_integrals.py:semimajor_axis", "src/astrodynx/twobody/_uniformulas.py:ufunc0"]}
{"id": "C48", "title": "coe2rv broadcasts its arguments as documented", "statement": "Arguments of coe2rv whose shapes are broadcast compatible are accepted and give the row-wise result.", "quantifier": "all broadcast-compatible shapes of the seven arguments", "why_tests_cant": "shape combinations are unbounded", "anchors": ["src/astrodynx/twobody/_orb_elements.py:coe2rv", "src/astrodynx/utils/_rot_mat.py:rotmat3dz"]}
{"id": "C49", "title": "kepler can be jitted, vmapped and differentiated as documented", "statement": "kepler accepts traced arguments (jax.jit, jax.vmap, jax.jacfwd) for times and initial state as promised in docs/basics.rst.", "quantifier": "all combinations of traced and concrete arguments", "why_tests_cant": "tracing semantics rather than values", "anchors": ["src/astrodynx/prop/_kepler.py:kepler"]}
{"id": "C50", "title": "energy and axial angular momentum are conserved under the code's gravity models", "statement": "Along every motion whose acceleration is the sum of point_mass_grav, j2_acc, j3_acc and j4_acc, the sum of kinetic energy, Kepler potential and zonal potentials of degree 2, 3 and 4 is constant, and so is the z component of angular momentum.", "quantifier": "all mu, J2, J3, J4, R_eq and all motions that avoid the origin", "why_tests_cant": "a statement about exact trajectories for all times; numerical integration only shows small drift on sampled orbits", "anchors": ["src/astrodynx/gravity/_general.py:point_mass_grav", "src/astrodynx/gravity/_general.py:j2_acc", "src/astrodynx/gravity/_general.py:j3_acc", "src/astrodynx/gravity/_general.py:j4_acc"]}
{"id": "C51", "title": "kepler does not depend on the unit of length", "statement": "Expressing the same orbit in another unit of length (and mu accordingly) gives the same states in that unit, for every orbit and every scale.", "quantifier": "all states with h != 0, all batches of times, all positive length and time scales", "why_tests_cant": "the stopping test uses an absolute tolerance on a quantity with dimension; whether it matters depends on orbit, time and scale together", "anchors": ["src/astrodynx/prop/_kepler.py:kepler", "src/astrodynx/twobody/_kep_equ.py:solve_kepler_uni"]}
{"id": "C52", "title": "Exceptional inputs are flagged by NaN or infinity and no others are", "statement": "On the domain of each function (positive mu, h != 0, r != 0, conic of the right type, finite anomaly) no intermediate quantity is infinite or NaN in exact arithmetic; outside it (start at the centre, negative or NaN mu, NaN anywhere, rectilinear state for angles, asymptotic anomaly, wrong conic, parabola where an apoapsis is asked for) the result carries a NaN or an infinity rather than a plausible number.", "quantifier": "all finite and exceptional inputs of the elements, conversions, Kepler solvers, propagator, transition matrix, gravity models and path checks", "why_tests_cant": "absence of exceptional intermediates over the whole domain", "anchors": ["src/astrodynx/prop/_kepler.py:kepler", "src/astrodynx/twobody/_orb_elements.py:rv2coe", "src/astrodynx/twobody/_orb_elements.py:coe2rv", "src/astrodynx/twobody/_kep_equ.py:solve_kepler_elps", "src/astrodynx/twobody/_path_check.py:rp_islower_rmin", "src/astrodynx/twobody/_path_check.py:pass_perigee", "src/astrodynx/gravity/_general.py:point_mass_grav"]}
{"id": "C53", "title": "Scalar formulas broadcast", "statement": "Each formula between numbers accepts arrays exactly if their shapes are broadcast compatible, returns the common shape, and each element equals the formula on the elements read there; the universal functions do so in every argument except alpha, which must be a scalar.", "quantifier": "all arithmetics, all shapes and all array contents", "why_tests_cant": "shape combinations are unbounded and every element of every result is claimed", "anchors": ["src/astrodynx/twobody/_orb_integrals.py:orb_period", "src/astrodynx/twobody/_orb_integrals.py:equ_of_orb_uvi", "src/astrodynx/twobody/_kep_equ.py:kepler_equ_elps", "src/astrodynx/twobody/_kep_equ.py:kepler_equ_uni", "src/astrodynx/twobody/_uniformulas.py:ufunc0", "src/astrodynx/twobody/_lagrange.py:lagrange_G", "src/astrodynx/twobody/_state_trans.py:C_func"]}
{"id": "C54", "title": "Functions of vectors act on each row of a batch", "statement": "angular_momentum, eccentricity_vector, sigma_fn, the rotation matrices and rv2coe applied to batches of vectors of broadcast-compatible shapes return, in each row, the value for that row; mu may have any shape broadcast compatible with the vectors, as their docstrings say.", "quantifier": "all arithmetics, all batch shapes and all array contents", "why_tests_cant": "shape combinations are unbounded and every element of every result is claimed", "anchors": ["src/astrodynx/twobody/_orb_integrals.py:angular_momentum", "src/astrodynx/twobody/_orb_integrals.py:eccentricity_vector", "src/astrodynx/twobody/_uniformulas.py:sigma_fn", "src/astrodynx/twobody/_orb_elements.py:rv2coe", "src/astrodynx/utils/_rot_mat.py:rotmat3dx"]}
{"id": "C55", "title": "Shapes accepted by the propagator, the transition matrix and the Newton loops", "statement": "kepler accepts one state, a scalar mu and a scalar or one-dimensional array of times; it refuses any other shape of times or mu and any batch of initial states, and it returns one row per time as in the scalar model; dxdx0 of one state is the 6x6 matrix of its four blocks; the Newton loops accept scalars only, so sigma_fn, whose result for one state has one element and one axis, must be unwrapped first.", "quantifier": "all arithmetics, all shapes of times and mu, all array contents", "why_tests_cant": "shapes are unbounded", "anchors": ["src/astrodynx/prop/_kepler.py:kepler", "src/astrodynx/twobody/_state_trans.py:dxdx0", "src/astrodynx/twobody/_kep_equ.py:solve_kepler_uni", "src/astrodynx/twobody/_uniformulas.py:sigma_fn"]}
{"id": "C56", "title": "Forward-mode differentiation of every closed formula is its derivative", "statement": "Differentiated by jax.jvp/jax.jacfwd, the orbital integrals, universal functions, Lagrange coefficients, Kepler equations, rotation matrices, element conversions and accelerations return the derivative of the function they compute, in every direction of all their arguments, at every point where the formula is differentiable, including zero energy for the universal functions.", "quantifier": "all differentiable one-parameter families of arguments on the stated domains", "why_tests_cant": "a derivative in every direction at every point; finite differences only sample", "anchors": ["src/astrodynx/twobody/_orb_integrals.py:orb_period", "src/astrodynx/twobody/_uniformulas.py:ufunc2", "src/astrodynx/twobody/_lagrange.py:lagrange_F", "src/astrodynx/twobody/_kep_equ.py:kepler_equ_uni", "src/astrodynx/twobody/_orb_elements.py:rv2coe", "src/astrodynx/twobody/_orb_elements.py:coe2rv", "src/astrodynx/gravity/_general.py:j2_acc", "src/astrodynx/twobody/_path_check.py:nmax_by_periapsis"]}
{"id": "C57", "title": "Differentiating kepler in time gives velocity and acceleration", "statement": "The forward-mode time derivative of the position returned by kepler is the returned velocity, and that of the velocity is the gravitational acceleration at the returned position.", "quantifier": "all states with h != 0, all times, mu > 0", "why_tests_cant": "a derivative through a data-dependent number of Newton steps", "anchors": ["src/astrodynx/prop/_kepler.py:kepler", "src/astrodynx/twobody/_kep_equ.py:solve_kepler_uni"]}
{"id": "C58", "title": "Stopping early in single precision means the rounded equation holds exactly", "statement": "In float32 with the default tolerance, when sqrt(mu)*deltat (or the hyperbolic mean anomaly) is at least 32 in size, a solver that stops before its iteration limit returns a value at which the rounded Kepler equation holds with equality or is NaN; the elliptic solver, when its last two iterates are at least 32 in size, stops early only if they are equal or NaN.", "quantifier": "all float32 arguments, any implementation of the transcendental functions", "why_tests_cant": "all floats and all math libraries, and it says why iteration limits are reached", "anchors": ["src/astrodynx/twobody/_kep_equ.py:solve_kepler_uni", "src/astrodynx/twobody/_kep_equ.py:solve_kepler_hypb", "src/astrodynx/twobody/_kep_equ.py:solve_kepler_elps"]}
{"id": "C59", "title": "Universal functions stay accurate near zero energy in single precision", "statement": "In float32, ufunc2 computes U2 with a relative error below 1 also when alpha*chi^2 is close to zero.", "quantifier": "all float32 chi and all nonzero float32 alpha with |alpha| <= 1, any implementation of sin, cos, sinh, cosh", "why_tests_cant": "a cancellation that no choice of math library repairs", "anchors": ["src/astrodynx/twobody/_uniformulas.py:ufunc2"]}
{"id": "C60", "title": "Elliptic Kepler solver iterates in double precision", "statement": "With x64 enabled, solve_kepler_elps with default settings makes at least one Newton step and returns a solution of Kepler's equation, for every mean anomaly.", "quantifier": "all float64 M and e, any implementation of the transcendental functions", "why_tests_cant": "all floats and all math libraries; the failure starts at mean anomalies of 3.4e10", "anchors": ["src/astrodynx/twobody/_kep_equ.py:solve_kepler_elps"]}
{"id": "C61", "title": "Stopping early in double precision means the rounded equation holds exactly", "statement": "In float64 with the default tolerance, when sqrt(mu)*deltat (or the hyperbolic mean anomaly) is at least 2^34 in size, a solver that stops before its iteration limit returns a value at which the rounded Kepler equation holds with equality or is NaN; the elliptic solver, when its last two iterates are at least 2^34 in size, stops early only if they are equal or NaN.", "quantifier": "all float64 arguments, any implementation of the transcendental functions", "why_tests_cant": "all floats and all math libraries", "anchors": ["src/astrodynx/twobody/_kep_equ.py:solve_kepler_uni", "src/astrodynx/twobody/_kep_equ.py:solve_kepler_hypb", "src/astrodynx/twobody/_kep_equ.py:solve_kepler_elps"]}
{"id": "C62", "title": "U2 stays accurate near zero energy in double precision", "statement": "In float64, ufunc2 computes U2 with a relative error below 1 also when alpha*chi^2 is close to zero.", "quantifier": "all float64 chi and all nonzero float64 alpha with |alpha| <= 1, any implementation of sin, cos, sinh, cosh", "why_tests_cant": "a cancellation that no choice of math library repairs", "anchors": ["src/astrodynx/twobody/_uniformulas.py:ufunc2"]}
{"id": "C63", "title": "U3 stays accurate near zero energy in single precision", "statement": "In float32, ufunc3 computes U3 with a relative error below 1 also when alpha*chi^2 is close to zero.", "quantifier": "all float32 chi and all nonzero float32 alpha with |alpha| <= 1, any implementation of sin and sinh", "why_tests_cant": "a cancellation that no choice of math library repairs", "anchors": ["src/astrodynx/twobody/_uniformulas.py:ufunc3"]}
{"id": "C64", "title": "U3 stays accurate near zero energy in double precision", "statement": "In float64, ufunc3 computes U3 with a relative error below 1 also when alpha*chi^2 is close to zero.", "quantifier": "all float64 chi and all nonzero float64 alpha with |alpha| <= 1, any implementation of sin and sinh", "why_tests_cant": "a cancellation that no choice of math library repairs", "anchors": ["src/astrodynx/twobody/_uniformulas.py:ufunc3"]}
{"id": "C65", "title": "Closed formulas and point mass gravity are accurate to a few units in single precision", "statement": "In float32, with every operation rounded to nearest even, the relative error is at most C*2^-24 with C = 7 for orb_period, 4 for mean_motion, 3 for semiparameter, radius_periapsis and radius_apoapsis, 5 for the two mean anomalies and 14 for each component of point_mass_grav.", "quantifier": "all finite float32 inputs whose exact intermediate values are zero or between 2^-125 and 2^125 in size (coordinates between 2^-30 and 2^30), any math library", "why_tests_cant": "rounding errors of all inputs, which a test with a tolerance samples at a few points", "anchors": ["src/astrodynx/twobody/_orb_integrals.py:orb_period", "src/astrodynx/twobody/_orb_integrals.py:mean_motion", "src/astrodynx/twobody/_orb_integrals.py:semiparameter", "src/astrodynx/twobody/_orb_integrals.py:radius_periapsis", "src/astrodynx/twobody/_orb_integrals.py:radius_apoapsis", "src/astrodynx/twobody/_kep_equ.py:mean_anomaly_elps", "src/astrodynx/twobody/_kep_equ.py:mean_anomaly_hypb", "src/astrodynx/gravity/_general.py:point_mass_grav"]}
{"id": "C66", "title": "Zonal accelerations are accurate in single precision", "statement": "In float32 every component of j2_acc, j3_acc and j4_acc is within 184, 649 and 1113 units of 2^-24 of the size of its leading factor.", "quantifier": "all finite float32 positions, mu, J and R_eq whose exact intermediate values stay in the normal range, in particular r^5 or r^7 up to 2^125", "why_tests_cant": "the brackets cancel near some latitudes; a test sees a few latitudes only", "anchors": ["src/astrodynx/gravity/_general.py:j2_acc", "src/astrodynx/gravity/_general.py:j3_acc", "src/astrodynx/gravity/_general.py:j4_acc"]}
{"id": "C67", "title": "J3 and J4 act at every distance in single precision", "statement": "In float32 j3_acc and j4_acc return nonzero accelerations for a satellite in low Earth orbit given in metres.", "quantifier": "all float32 positions at a distance of 2^19 or more, any constants in the normal range, any math library", "why_tests_cant": "the tests use kilometres or canonical units, where r^7 does not overflow", "anchors": ["src/astrodynx/gravity/_general.py:j3_acc", "src/astrodynx/gravity/_general.py:j4_acc"]}
{"id": "C68", "title": "Formulas with a difference lose no more than its condition number in single precision", "statement": "In float32 the error of semimajor_axis, semipara_from_ae, a_from_pe and equ_of_orbit is a constant (at most 18) times 2^-24 times the condition number of their difference, and each component of angular_momentum is within 6*2^-24 of the sum of the sizes of its two products.", "quantifier": "all finite float32 inputs with exact intermediate values in the normal range and a condition number of at most 2^24/28; a cosine of absolute error at most 2^-24 for equ_of_orbit", "why_tests_cant": "close to a parabola the digits that survive depend on how the formula is written", "anchors": ["src/astrodynx/twobody/_orb_integrals.py:semimajor_axis", "src/astrodynx/twobody/_orb_integrals.py:semipara_from_ae", "src/astrodynx/twobody/_orb_integrals.py:a_from_pe", "src/astrodynx/twobody/_orb_integrals.py:equ_of_orbit", "src/astrodynx/twobody/_orb_integrals.py:angular_momentum"]}
{"id": "C69", "title": "The universal functions accept integers and mixed widths", "statement": "ufunc0 to ufunc5 accept any combination of Python numbers and int32, int64, float32 or float64 arrays and return a float.", "quantifier": "all pairs of dtypes, with and without jax_enable_x64, any rule for the weakness of the result of lax.cond", "why_tests_cant": "the tests call the functions with float arrays of one width; jax compares the dtypes of the branches only when it traces", "anchors": ["src/astrodynx/twobody/_uniformulas.py:ufunc0", "src/astrodynx/twobody/_uniformulas.py:ufunc1", "src/astrodynx/twobody/_uniformulas.py:ufunc2", "src/astrodynx/twobody/_uniformulas.py:ufunc3", "src/astrodynx/twobody/_uniformulas.py:ufunc4", "src/astrodynx/twobody/_uniformulas.py:ufunc5"]}
{"id": "C70", "title": "The propagator and the Kepler solvers accept mixed dtypes", "statement": "kepler accepts any combination of dtypes for times, position, velocity and mu, and returns float32 without and float64 with jax_enable_x64; solve_kepler_elps and solve_kepler_hypb accept any combination for the anomaly and the eccentricity.", "quantifier": "all combinations of Python numbers and int32, int64, float32, float64 arrays that exist in the mode, with and without jax_enable_x64", "why_tests_cant": "the type checks of cond and while_loop run at trace time on dtypes the tests do not combine", "anchors": ["src/astrodynx/prop/_kepler.py:kepler", "src/astrodynx/twobody/_kep_equ.py:solve_kepler_uni", "src/astrodynx/twobody/_kep_equ.py:solve_kepler_elps", "src/astrodynx/twobody/_kep_equ.py:solve_kepler_hypb"]}
{"id": "C71", "title": "Python constants and defaults do not change float32 results", "statement": "On float32 arrays the formulas return exactly what a computation in float32 only returns, although their literals, pi and the default tolerance are Python numbers that are combined in double precision before they meet an array.", "quantifier": "all float32 inputs including NaN and infinities, any math library; the scalar formulas of _orb_integrals, the Kepler equations and solvers, ufunc1 to ufunc5, gravity", "why_tests_cant": "double rounding of constants shows in the last bit only, below every tolerance of the tests", "anchors": ["src/astrodynx/twobody/_orb_integrals.py:orb_period", "src/astrodynx/twobody/_orb_integrals.py:a_from_period", "src/astrodynx/twobody/_orb_integrals.py:semimajor_axis", "src/astrodynx/twobody/_orb_integrals.py:semiparameter", "src/astrodynx/twobody/_orb_integrals.py:mean_motion", "src/astrodynx/twobody/_orb_integrals.py:equ_of_orbit", "src/astrodynx/twobody/_orb_integrals.py:radius_periapsis", "src/astrodynx/twobody/_orb_integrals.py:radius_apoapsis", "src/astrodynx/twobody/_orb_integrals.py:semipara_from_ae", "src/astrodynx/twobody/_orb_integrals.py:a_from_pe", "src/astrodynx/twobody/_orb_integrals.py:angular_momentum", "src/astrodynx/twobody/_orb_integrals.py:eccentricity_vector", "src/astrodynx/twobody/_kep_equ.py:kepler_equ_elps", "src/astrodynx/twobody/_kep_equ.py:kepler_equ_hypb", "src/astrodynx/twobody/_kep_equ.py:mean_anomaly_elps", "src/astrodynx/twobody/_kep_equ.py:mean_anomaly_hypb", "src/astrodynx/twobody/_kep_equ.py:solve_kepler_elps", "src/astrodynx/twobody/_kep_equ.py:solve_kepler_hypb", "src/astrodynx/twobody/_kep_equ.py:solve_kepler_uni", "src/astrodynx/twobody/_uniformulas.py:sigma_fn", "src/astrodynx/twobody/_uniformulas.py:ufunc1", "src/astrodynx/twobody/_uniformulas.py:ufunc2", "src/astrodynx/twobody/_uniformulas.py:ufunc3", "src/astrodynx/twobody/_uniformulas.py:ufunc4", "src/astrodynx/twobody/_uniformulas.py:ufunc5", "src/astrodynx/gravity/_general.py:point_mass_grav", "src/astrodynx/gravity/_general.py:j2_acc", "src/astrodynx/gravity/_general.py:j3_acc", "src/astrodynx/gravity/_general.py:j4_acc"]}
{"id": "C72", "title": "Python numbers are accepted wherever arrays are", "statement": "Functions documented for ArrayLike arguments accept Python ints and floats and return what they return for arrays, up to rounding.", "quantifier": "all Python floats and ints for radius_apoapsis, radius_periapsis, semiparameter, semimajor_axis; all Python ints mu of 2^31 or more for functions that combine mu with an array; all Python floats, and all Python ints within int32, for the Kepler equations and equ_of_orbit", "why_tests_cant": "the exceptional inputs (an exact parabola, a large integer mu) are single points", "anchors": ["src/astrodynx/twobody/_orb_integrals.py:radius_apoapsis", "src/astrodynx/twobody/_orb_integrals.py:radius_periapsis", "src/astrodynx/twobody/_orb_integrals.py:semiparameter", "src/astrodynx/twobody/_orb_integrals.py:semimajor_axis", "src/astrodynx/twobody/_orb_integrals.py:orb_period", "src/astrodynx/twobody/_uniformulas.py:sigma_fn", "src/astrodynx/twobody/_kep_equ.py:mean_anomaly_elps", "src/astrodynx/twobody/_kep_equ.py:kepler_equ_elps", "src/astrodynx/twobody/_kep_equ.py:kepler_equ_hypb", "src/astrodynx/twobody/_orb_integrals.py:equ_of_orbit"]}
{"id": "C73", "title": "Integer arrays give the value of the formula", "statement": "orb_period, semiparameter and mean_anomaly_elps on int32 arrays return the value of the formula up to float32 rounding.", "quantifier": "all int32 a or h, all mu between 2^-60 and 2^60 as Python number or array", "why_tests_cant": "powers of integer arrays wrap silently modulo 2^32; the tests pass floats", "anchors": ["src/astrodynx/twobody/_orb_integrals.py:orb_period", "src/astrodynx/twobody/_orb_integrals.py:semiparameter", "src/astrodynx/twobody/_kep_equ.py:mean_anomaly_elps"]}
{"id": "C74", "title": "Closed formulas and point mass gravity are accurate to a few units in double precision", "statement": "In float64, with every operation rounded to nearest even, the relative error is at most C*2^-53 with C = 7 for orb_period, 4 for mean_motion, 3 for semiparameter, radius_periapsis and radius_apoapsis, 5 for the two mean anomalies and 14 for each component of point_mass_grav.", "quantifier": "all finite float64 inputs whose exact intermediate values are zero or between 2^-1020 and 2^1020 in size (coordinates between 2^-250 and 2^250), any math library", "why_tests_cant": "rounding errors of all inputs, which a test with a tolerance samples at a few points", "anchors": ["src/astrodynx/twobody/_orb_integrals.py:orb_period", "src/astrodynx/twobody/_orb_integrals.py:mean_motion", "src/astrodynx/twobody/_orb_integrals.py:semiparameter", "src/astrodynx/twobody/_orb_integrals.py:radius_periapsis", "src/astrodynx/twobody/_orb_integrals.py:radius_apoapsis", "src/astrodynx/twobody/_kep_equ.py:mean_anomaly_elps", "src/astrodynx/twobody/_kep_equ.py:mean_anomaly_hypb", "src/astrodynx/gravity/_general.py:point_mass_grav"]}
{"id": "C75", "title": "Zonal accelerations are accurate in double precision", "statement": "In float64 every component of j2_acc, j3_acc and j4_acc is within 184, 649 and 1113 units of 2^-53 of the size of its leading factor.", "quantifier": "all finite float64 positions, mu, J and R_eq whose exact intermediate values stay in the normal range, in particular r^5 or r^7 up to 2^1020", "why_tests_cant": "the brackets cancel near some latitudes; a test sees a few latitudes only", "anchors": ["src/astrodynx/gravity/_general.py:j2_acc", "src/astrodynx/gravity/_general.py:j3_acc", "src/astrodynx/gravity/_general.py:j4_acc"]}
{"id": "C76", "title": "Formulas with a difference lose no more than its condition number in double precision", "statement": "In float64 the error of semimajor_axis, semipara_from_ae, a_from_pe and equ_of_orbit is a constant (at most 18) times 2^-53 times the condition number of their difference, and each component of angular_momentum is within 6*2^-53 of the sum of the sizes of its two products.", "quantifier": "all finite float64 inputs with exact intermediate values in the normal range and a condition number of at most 2^53/28; a cosine of absolute error at most 2^-53 for equ_of_orbit", "why_tests_cant": "close to a parabola the digits that survive depend on how the formula is written", "anchors": ["src/astrodynx/twobody/_orb_integrals.py:semimajor_axis", "src/astrodynx/twobody/_orb_integrals.py:semipara_from_ae", "src/astrodynx/twobody/_orb_integrals.py:a_from_pe", "src/astrodynx/twobody/_orb_integrals.py:equ_of_orbit", "src/astrodynx/twobody/_orb_integrals.py:angular_momentum"]}
{"id": "C77", "title": "The elliptic Kepler solver solves Kepler's equation in floating point", "statement": "In float64 and in float32, with sin and cos of absolute error at most delta, solve_kepler_elps with its default tolerance returns a finite number within 5e-12 + 1.1 D of the exact solution, and the residual of Kepler's equation is at most 1e-11 + 2 D, where D = 26 delta + (7|M| + 115) u and u is 2^-53 or 2^-24. For e up to 9/10 the result is within 2e-11 + 1.1 D9 of the solution and the residual is at most 4e-11 + 2.1 D9, where D9 = 44 delta + (13|M| + 260) u.", "quantifier": "all finite M with |M| <= 2^34 (float64) or 60 (float32); first bound: all 0 <= e <= 3/4, all iteration limits of at least 10, D <= 1/1000; second bound: all 0 <= e <= 9/10, all iteration limits of at least 17 (the default is 20), D9 <= 1/1000", "why_tests_cant": "tests compare a few anomalies; the bound covers every float, every libm of the stated accuracy and the way the stopping test rounds", "anchors": ["src/astrodynx/twobody/_kep_equ.py:solve_kepler_elps"]}
{"id": "C78", "title": "Vector formulas are accurate to a few units of roundoff", "statement": "In float64 and float32 the norm of a vector is within 4 units of roundoff, the components of angular_momentum within 3 units of |r||v|, sigma_fn within 8 units of |r||v|/sqrt(mu), the components of eccentricity_vector within 8 units of 2|r||v|^2/mu + 1, and the eccentricity, semiparameter and periapsis radius computed from a state within 14, 20 and 36 units of stated sizes.", "quantifier": "all finite states whose lengths and mu are within 2^-100..2^100 (float64) or 2^-17..2^17, 2^-8..2^8 and 2^-20..2^20 for r, v and mu (float32), components of any size; |r||v|^2 <= 1000 mu for the last three", "why_tests_cant": "cross products and the eccentricity vector cancel in some directions only, and small components may underflow", "anchors": ["src/astrodynx/twobody/_orb_integrals.py:angular_momentum", "src/astrodynx/twobody/_orb_integrals.py:eccentricity_vector", "src/astrodynx/twobody/_orb_integrals.py:semiparameter", "src/astrodynx/twobody/_orb_integrals.py:radius_periapsis", "src/astrodynx/twobody/_uniformulas.py:sigma_fn"]}
{"id": "C79", "title": "Path decisions are right away from their boundaries", "statement": "In float64 and float32, is_short_way, pass_perigee and rp_islower_rmin give the answer of exact arithmetic whenever the exact quantities they compare differ by more than stated multiples (24, 90 and 36 units of roundoff) of their sizes, and nmax_by_periapsis is the floor of a number within 12 units of roundoff of the exact number of revolutions.", "quantifier": "all finite states in the ranges of C78, all targets, all finite rmin, all positive radii and times in range", "why_tests_cant": "the wrong answers are confined to thin strips around the boundaries, which tests do not hit; the theorem says how thin", "anchors": ["src/astrodynx/twobody/_path_check.py:is_short_way", "src/astrodynx/twobody/_path_check.py:pass_perigee", "src/astrodynx/twobody/_path_check.py:rp_islower_rmin", "src/astrodynx/twobody/_path_check.py:nmax_by_periapsis"]}
{"id": "C80", "title": "Element conversion is accurate to a few units of roundoff", "statement": "In float64 and float32 every component of the position of coe2rv is within 20c+60 units of roundoff of the exact one, relative to p(1+e)/(1+e cos f)^2, and every component of the velocity within 16c+60 units, relative to sqrt(mu/p)(1+e), where c <= 8 is the accuracy of sin and cos on the four angles in units of roundoff.", "quantifier": "all finite p and mu in 2^-100..2^100 (float64) or 2^-17..2^17 and 2^-20..2^20 (float32), 0 <= e <= 1000, any angles, with 1 + e <= 1000 (1 + e cos f); any math library of the stated accuracy", "why_tests_cant": "the error is a sum over ten rounded trigonometric products whose cancellations depend on three angles", "anchors": ["src/astrodynx/twobody/_orb_elements.py:coe2rv"]}
{"id": "C81", "title": "Universal functions and Kepler's equations are accurate to a few units of roundoff", "statement": "In float64 and float32 the universal functions U0-U3 are within c+12 units of roundoff of the exact ones relative to 2 (1 + theta) cosh(theta) / sqrt|alpha|^n (without the cosh for alpha > 0, chi^n/n! for alpha = 0), theta = sqrt|alpha| |chi|, U4 and U5 within c+12 and c+15 units of stated sizes, and the left sides and derivatives of the universal and hyperbolic Kepler equations within c+16, c+15 and c+4 units.", "quantifier": "all finite chi, alpha, r0 > 0, sigma0, mu > 0, dt in stated ranges, theta <= 2^30 for alpha > 0 and <= 100 for alpha < 0 (2^10 and 10 in float32), alpha <> 0 for U4 and U5; any math library accurate to c <= 8 units", "why_tests_cant": "cancellation in U2-U5 is worst near alpha = 0, and the bound must hold for all anomalies", "anchors": ["src/astrodynx/twobody/_uniformulas.py:ufunc0", "src/astrodynx/twobody/_uniformulas.py:ufunc1", "src/astrodynx/twobody/_uniformulas.py:ufunc2", "src/astrodynx/twobody/_uniformulas.py:ufunc3", "src/astrodynx/twobody/_uniformulas.py:ufunc4", "src/astrodynx/twobody/_uniformulas.py:ufunc5", "src/astrodynx/twobody/_kep_equ.py:kepler_equ_uni", "src/astrodynx/twobody/_kep_equ.py:kepler_equ_hypb", "src/astrodynx/twobody/_kep_equ.py:dchi"]}
{"id": "C82", "title": "A solver that stops early is right up to tolerance and rounding", "statement": "If solve_kepler_uni or solve_kepler_hypb leaves its loop before max_iter, then in float64 and float32 the exact residual of the returned anomaly is at most tol plus c+16 (c+4) units of roundoff of the size of the terms of the equation, and the anomaly differs from an exact solution by at most that bound divided by the smallest radius in between (by e - 1 for the hyperbola).", "quantifier": "all inputs in the ranges of C81, all finite tol, any iteration limit, any math library accurate to c <= 8 units", "why_tests_cant": "the stopping test is made on the rounded residual; for which tol and orbit its answer can be trusted needs the error bound for all inputs", "anchors": ["src/astrodynx/twobody/_kep_equ.py:solve_kepler_uni", "src/astrodynx/twobody/_kep_equ.py:solve_kepler_hypb"]}
{"id": "C83", "title": "The propagated state is accurate for the anomaly it is computed from", "statement": "In float64 and float32, for given chi, alpha, sigma0, r0 the position and velocity computed by kepler from the universal functions and the Lagrange coefficients are within c+21 and 2c+36 units of roundoff of the exact combination of the initial state, relative to the sizes of its terms, whenever the new radius is not smaller than 3000 units of roundoff of the size of its terms.", "quantifier": "all states, chi, alpha, r0, sigma0, mu in the ranges of C78 and C81", "why_tests_cant": "the Lagrange coefficients divide by a radius that is itself a sum with cancellation", "anchors": ["src/astrodynx/prop/_kepler.py:kepler", "src/astrodynx/twobody/_lagrange.py:lagrange_F", "src/astrodynx/twobody/_lagrange.py:lagrange_G", "src/astrodynx/twobody/_lagrange.py:lagrange_Ft", "src/astrodynx/twobody/_lagrange.py:lagrange_Gt"]}
{"id": "C84", "title": "Reverse-mode derivatives of the closed formulas are right", "statement": "jax.grad/jax.vjp of every closed formula (orbital integrals, universal functions, Lagrange coefficients, Kepler equations, rotations, coe2rv, rv2coe, point mass, J2-J4) gives the gradient: for every cotangent and every motion of the inputs, the cotangents sent back pair with the speeds of the inputs to the derivative of the formula.", "quantifier": "all differentiable motions of the inputs, all cotangents, all points of the domain away from the singularities of the formula; any number of inputs", "why_tests_cant": "the tests differentiate a few functions at a few points; the claim is about every point, every direction and every output", "anchors": ["src/astrodynx/twobody/_orb_integrals.py:orb_period", "src/astrodynx/twobody/_orb_integrals.py:semimajor_axis", "src/astrodynx/twobody/_orb_integrals.py:eccentricity_vector", "src/astrodynx/twobody/_uniformulas.py:sigma_fn", "src/astrodynx/twobody/_uniformulas.py:ufunc0", "src/astrodynx/twobody/_uniformulas.py:ufunc1", "src/astrodynx/twobody/_uniformulas.py:ufunc2", "src/astrodynx/twobody/_uniformulas.py:ufunc3", "src/astrodynx/twobody/_uniformulas.py:ufunc4", "src/astrodynx/twobody/_uniformulas.py:ufunc5", "src/astrodynx/twobody/_kep_equ.py:kepler_equ_uni", "src/astrodynx/twobody/_kep_equ.py:dchi", "src/astrodynx/twobody/_orb_elements.py:rv2coe", "src/astrodynx/twobody/_orb_elements.py:coe2rv", "src/astrodynx/gravity/_general.py:point_mass_grav", "src/astrodynx/twobody/_path_check.py:nmax_by_periapsis"]}
{"id": "C85", "title": "Reverse mode of the solvers and the propagator", "statement": "jax.grad of solve_kepler_elps, solve_kepler_hypb and solve_kepler_uni gives the derivative of the solution, and jax.jacrev of kepler gives the derivative of the flow in the times, mu and the initial state.", "quantifier": "all arguments, all states with angular momentum and non-zero energy", "why_tests_cant": "no test differentiates the solvers or the propagator; that the loop has no backward pass and that .item() cuts the dependence on the state holds for every input", "anchors": ["src/astrodynx/twobody/_kep_equ.py:solve_kepler_elps", "src/astrodynx/twobody/_kep_equ.py:solve_kepler_hypb", "src/astrodynx/twobody/_kep_equ.py:solve_kepler_uni", "src/astrodynx/prop/_kepler.py:kepler"]}
{"id": "C86", "title": "kepler in floating point is exact Kepler motion of nearby data", "statement": "In float64 and float32, whenever the Newton run for a requested time stops before max_iter, the row of kepler for that time is within c+50 (position) and 2c+50 (velocity) units of roundoff of a state reached by exact Kepler motion from an initial state that differs from the given one by 4 units (position) and 13 |v| + 50 W units (velocity), after a time that differs from the given one by tol / sqrt(mu) and a few units of roundoff; W = (2 mu / r + v^2) r / h grows as the state becomes radial.", "quantifier": "all states and times in the ranges of C82 and C83 with angular momentum h, h^2 > 50 units of (2 mu / r + v^2) r^2", "why_tests_cant": "the rounded r0, sigma0 and alpha belong to no state in the test, and the rounded anomaly belongs to another time; that all of them belong together to one nearby orbit holds for every input or not at all", "anchors": ["src/astrodynx/prop/_kepler.py:kepler", "src/astrodynx/twobody/_kep_equ.py:solve_kepler_uni", "src/astrodynx/twobody/_lagrange.py:lagrange_F", "src/astrodynx/twobody/_lagrange.py:lagrange_Ft"]}
{"id": "C87", "title": "rv2coe in floating point: every element is near the exact one and the inclination is never NaN", "statement": "In float64 and float32, with an arctan2 and an arccos accurate to c units of roundoff: semiparameter and eccentricity are within 20 and 14 units of their exact values; right ascension, argument of periapsis and true anomaly point, to 3c+139 units, along the exact node, along the exact eccentricity vector as seen from the node and along the exact position as seen from periapsis, and lie between 0 and twice the rounded pi; the rounded |h_z| never exceeds the rounded |h|, so the inclination is a number between 0 and the rounded pi whose cosine is within 3c+30 units.", "quantifier": "all states with |r|, |v|, mu in the stated ranges, r v^2 <= 1000 mu, and for the inclination |h| > 50 units of |r||v|", "why_tests_cant": "arccos(h_z/|h|) is NaN if the quotient rounds above 1, which a test can only rule out for the states it tries; outside the stated range of magnitudes it does happen (C87_underflow_single)", "anchors": ["src/astrodynx/twobody/_orb_elements.py:rv2coe", "src/astrodynx/twobody/_orb_elements.py:inclination", "src/astrodynx/twobody/_orb_elements.py:right_ascension", "src/astrodynx/twobody/_orb_elements.py:argument_of_periapsis", "src/astrodynx/twobody/_orb_elements.py:true_anomaly"]}
{"id": "C88", "title": "solve_kepler_elps under jax.jvp: the derivative is that of the solution", "statement": "If the mean anomaly and the eccentricity vary with a parameter, the solution of Kepler's equation has a derivative, and the derivative that forward-mode differentiation pushes through the Newton loop differs from it by at most 46 millionths of (|dM| + |de|) / (1-e)^2. The value is the one computed without differentiation.", "quantifier": "all mean anomalies, all eccentricities 0 <= e <= 0.996, all directions, default tolerance and iteration limit, exact arithmetic", "why_tests_cant": "the loop stops by the change of the value alone; whether the derivative has settled by then depends on the path of the iterates and near e = 1 on cancelling terms of size 1/(1-e)^2", "anchors": ["src/astrodynx/twobody/_kep_equ.py:solve_kepler_elps"]}
{"id": "C89", "title": "solve_kepler_hypb under jax.jvp: the derivative is that of the solution", "statement": "The derivative that forward-mode differentiation pushes through the loop is close to the derivative of the solution of the hyperbolic Kepler equation. (False where the starting guess already meets the tolerance, |N - arcsinh(2N/e)| <= 1e-6: there the derivative is that of the guess, at N = 0 2/e instead of 1/(e-1), and at e = 2N/sinh N too large by the factor 2 - tanh N/N. Otherwise true to 1.4 percent of (|dN| + |de| cosh H)/(e cosh H - 1) for e >= 2 and to 9 percent for e >= 6/5.)", "quantifier": "all N, all e > 1, all directions, default arguments, exact arithmetic", "why_tests_cant": "the wrong derivative appears only where the guess already meets the tolerance", "anchors": ["src/astrodynx/twobody/_kep_equ.py:solve_kepler_hypb"]}
{"id": "C90", "title": "Blocks of the state transition matrix and their coefficients under rounding", "statement": "Each entry of the four 3x3 blocks computed by prpr0, prpv0, pvpr0 and pvpv0 is finite and differs from Battin's formula for the block by at most 19, 14, 33 and 26 units of rounding of the sum of the sizes of its terms; C_func, lagrange_G and generalized_anomaly are within 10, 7 and 7 units of the sums of the sizes of their terms.", "quantifier": "all states, coefficients, times and mu > 0 within a wide range of magnitudes, any math library, single and double precision, unfused arithmetic", "why_tests_cant": "the errors of the cancelling matrix sums are visible only at particular inputs, and the reference values used in tests are themselves rounded", "anchors": ["src/astrodynx/twobody/_state_trans.py:prpr0", "src/astrodynx/twobody/_state_trans.py:prpv0", "src/astrodynx/twobody/_state_trans.py:pvpr0", "src/astrodynx/twobody/_state_trans.py:pvpv0"]}
{"id": "C91", "title": "dxdx0 under rounding", "statement": "The reciprocal semimajor axis and the generalised anomaly computed inside dxdx0 are within 16 and 10 units of rounding of the exact ones, and each block is within c+40, c+35, c+54 and c+47 units of Battin's formula evaluated exactly at that semimajor axis and anomaly, c being the accuracy of the math library; units are of the sum of the sizes of the terms.", "quantifier": "all pairs of states, times and mu > 0 within a range of magnitudes, alpha different from 0, any math library accurate to c <= 8 units, single and double precision, unfused arithmetic", "why_tests_cant": "a comparison with finite differences sees the truncation error of the differences, not the rounding error of the matrix", "anchors": ["src/astrodynx/twobody/_state_trans.py:dxdx0"]}
{"id": "C92", "title": "a_from_period under rounding", "statement": "The semimajor axis computed from a period is within c+5 units of rounding, relative, of the axis a with 4 pi^2 a^3 = mu P^2, c being the relative accuracy of the library's cube root; in single precision this also holds when pi^2 is the Python constant. Computing the period of an axis and then the axis of that period gives the first axis back within c+9 units.", "quantifier": "all periods, axes and mu > 0 in a wide range of magnitudes, any library whose cube root is accurate to c <= 100 units, single and double precision, unfused arithmetic", "why_tests_cant": "a test compares a few periods with a tolerance far above the rounding error", "anchors": ["src/astrodynx/twobody/_orb_integrals.py:a_from_period", "src/astrodynx/twobody/_orb_integrals.py:orb_period"]}
{"id": "C93", "title": "Rotation matrices and the radius event under rounding", "statement": "Every entry of the three rotation matrices is within c units of rounding of the exact rotation. The radius event is finite, within 6 units of |r| + |rmin| of |r| - rmin, and negative or positive as |r| is below or above rmin whenever the two differ by more than 4 units of |r|.", "quantifier": "all finite angles in the library's range; all positions and rmin in a range of magnitudes, any length of the state; single and double precision, unfused arithmetic", "why_tests_cant": "the event decides where a propagation stops; the sign near rmin is reached only by particular states", "anchors": ["src/astrodynx/utils/_rot_mat.py:rotmat3dx", "src/astrodynx/utils/_rot_mat.py:rotmat3dy", "src/astrodynx/utils/_rot_mat.py:rotmat3dz", "src/astrodynx/events/radius.py:radius_islow"]}
{"id": "C94", "title": "solve_kepler_hypb before periapsis under rounding", "statement": "For a negative hyperbolic mean anomaly solve_kepler_hypb returns a finite number, as it does for the opposite anomaly. (False: once N <= -2^12 e in single precision, or N <= -2^26 e in double precision, 2N/e + sqrt((2N/e)^2 + 1) cancels to zero, the start is log 0 = -inf, the residual there is NaN, the loop makes no step and -inf is returned. At the opposite anomaly the start is the logarithm of exactly twice the rounded 2N/e.)", "quantifier": "all finite N and e > 1 with -2^59 e <= N <= -2^12 e (2^499 and 2^26 in double precision), any tolerance and iteration limit, any library with log 0 = -inf and sinh(-inf) = -inf", "why_tests_cant": "the solver is odd in exact arithmetic and is tested for positive anomalies; the loss needs a large negative one", "anchors": ["src/astrodynx/twobody/_kep_equ.py:solve_kepler_hypb"]}
{"id": "C95", "title": "Propagation over no time is exact in floating point", "statement": "The row of kepler at time 0 (or -0) is the initial state, every component equal to the initial one as a number, whatever the other times. dxdx0 of a state and itself over time 0 is the identity matrix exactly. No rounding error, no NaN, for elliptic, parabolic (energy rounded to 0) and hyperbolic states alike.", "quantifier": "all finite states with |r|, |v|, mu within 2^-100..2^100 (float64) or 2^-17..2^17, 2^-8..2^8, 2^-20..2^20 (float32), |v| = 0 allowed; any batch of times; any math library exact at 0", "why_tests_cant": "needs exactness for every state and every place in the batch; a formula such as 1 - cos(0) with a library off by one unit, or 0/0 for a small alpha, breaks it only for some states", "anchors": ["src/astrodynx/prop/_kepler.py:kepler", "src/astrodynx/twobody/_state_trans.py:dxdx0", "src/astrodynx/twobody/_kep_equ.py:solve_kepler_uni", "src/astrodynx/twobody/_uniformulas.py:ufunc4", "src/astrodynx/twobody/_uniformulas.py:ufunc5"]}
{"id": "C96", "title": "A mirrored state gives the mirrored result, bit for bit", "statement": "Reflecting the state in any of the coordinate planes (changing the signs of any chosen components of position and velocity alike) changes the rounded results of kepler, dxdx0, eccentricity_vector, point_mass_grav, j2_acc and j4_acc by exactly that reflection, entry by entry, up to the sign of a zero; j3_acc additionally changes sign with z. The magnitudes of position, velocity, angular momentum and eccentricity vector, sigma, the altitude event radius_islow and the answers of is_short_way, pass_perigee and rp_islower_rmin are identical floats and booleans. No rounding error depends on the octant.", "quantifier": "all states, gravitational parameters and times in float64 and float32, including zeros, infinities, NaN and results that overflow or underflow; every choice of planes; any batch of times; any math library", "why_tests_cant": "needs every rounding on the way to be symmetric for every input; a single use of floor, of a comparison with a signed component or of an asymmetric rounding breaks it only for some inputs", "anchors": ["src/astrodynx/prop/_kepler.py:kepler", "src/astrodynx/twobody/_state_trans.py:dxdx0", "src/astrodynx/twobody/_orb_integrals.py:eccentricity_vector", "src/astrodynx/gravity/_general.py:j3_acc"]}
{"id": "C97", "title": "Running time backwards with reversed velocity retraces the rounded path exactly", "statement": "The rows of kepler at times -t from the state with reversed velocity are the rows at t with reversed velocity: every rounding, every Newton step and the stopping step of the universal solver agree, so positions are equal as numbers and velocities opposite. The transition matrix of dxdx0 for the reversed states over -t has the same position-position and velocity-velocity blocks and the opposite mixed blocks.", "quantifier": "any batch of times, including infinite and NaN ones; for kepler all finite states with |r|, |v|, mu within 2^-100..2^100 (float64) or 2^-17..2^17, 2^-8..2^8, 2^-20..2^20 (float32), |v| = 0 allowed; for dxdx0 all inputs whatever; any math library with odd sin, sinh and even cos, cosh that keeps zeros", "why_tests_cant": "needs the whole iteration, including the step at which it stops, to be the mirror image for every input", "anchors": ["src/astrodynx/prop/_kepler.py:kepler", "src/astrodynx/twobody/_kep_equ.py:solve_kepler_uni", "src/astrodynx/twobody/_state_trans.py:dxdx0", "src/astrodynx/twobody/_uniformulas.py:ufunc5"]}
{"id": "C98", "title": "The elliptic solver is odd in the mean anomaly", "statement": "With the default tolerance, solve_kepler_elps(-M, e) is exactly -solve_kepler_elps(M, e) in rounded arithmetic, with the same number of Newton steps.", "quantifier": "all M and e (NaN and infinite ones included) and all iteration limits in float64 and float32; any math library with odd sin and even cos that keeps zeros", "why_tests_cant": "the only exceptions are anomalies whose series start is exactly 64 (float32) or 2^35 (float64) in size: there one sign makes no step at all and returns the start, the other converges", "anchors": ["src/astrodynx/twobody/_kep_equ.py:solve_kepler_elps"]}
{"id": "C99", "title": "A change of units by powers of two changes only exponents: propagation", "statement": "If times are multiplied by 2^tau, velocities by 2^-tau and mu by 2^(-2 tau), kepler in float64 and float32 returns exactly the same positions and the velocities times 2^-tau, bit for bit; dxdx0 returns its blocks times 1, 2^tau, 2^-tau, 1 even if lengths are multiplied by 2^(2 l) as well; solve_kepler_uni does so for lengths too when its tolerance is given in the new units.", "quantifier": "all finite inputs, all exponents l and tau and all guard widths K >= 16|l| + 4|tau| such that the run with guard K meets no intermediate result within a factor 2^K of overflow or underflow; any math library, any batch of times, any number of Newton steps", "why_tests_cant": "one constant, tolerance or softening term with a hidden unit would change results in some units only; tests use one system of units, and rounding must be excluded bit by bit", "anchors": ["src/astrodynx/prop/_kepler.py:kepler", "src/astrodynx/twobody/_kep_equ.py:solve_kepler_uni", "src/astrodynx/twobody/_state_trans.py:dxdx0", "src/astrodynx/twobody/_uniformulas.py:ufunc5", "src/astrodynx/twobody/_lagrange.py:lagrange_G"]}
{"id": "C100", "title": "A change of units by powers of two changes only exponents: elements, path checks and forces", "statement": "If lengths are multiplied by 2^lam and times by 2^tau, then in float64 and float32, bit for bit: the semimajor axis, semiparameter and position of coe2rv are multiplied by 2^lam, velocities by 2^(lam-tau), angular momentum by 2^(2 lam-tau), the period by 2^tau and accelerations of point_mass_grav, j2_acc, j3_acc, j4_acc by 2^(lam-2 tau); eccentricity, the angles, the mean anomalies, nmax_by_periapsis and the answers of is_short_way, pass_perigee and rp_islower_rmin do not change; a missing key raises the same exception.", "quantifier": "all finite inputs, all exponents lam and tau and all guard widths K >= 8|lam| + 4|tau| such that the run with guard K meets no intermediate result within a factor 2^K of overflow or underflow; any math library (for the three angles from arctan2: one whose arctan2 does not depend on a common power of two), any dictionary and any state array", "why_tests_cant": "a rounding-sensitive decision or a constant with a hidden unit shows only in some units; equality is bit for bit, which no tolerance-based comparison checks", "anchors": ["src/astrodynx/twobody/_orb_elements.py:rv2coe", "src/astrodynx/twobody/_orb_elements.py:coe2rv", "src/astrodynx/twobody/_orb_integrals.py:orb_period", "src/astrodynx/twobody/_path_check.py:pass_perigee", "src/astrodynx/gravity/_general.py:j4_acc"]}
{"id": "C101", "title": "Rounding keeps the order of the arguments", "statement": "In float64 and float32, through overflow and underflow: periapsis <= semiparameter <= semimajor axis <= apoapsis; the radius at any true anomaly lies between the rounded periapsis and apoapsis; each of these grows or shrinks with p and e as in exact arithmetic. A larger semimajor axis or a smaller mu never gives a shorter period, nor the converse; the mean motion, semimajor axis from period, semiparameter, semimajor axis of an ellipse from speed and distance, mean anomaly, residuals of the three Kepler equations, the periapsis check, the number of revolutions, the radius event and the pull of a point mass are monotone in their arguments in the same way.", "quantifier": "all finite positive (or non-negative) arguments; any cosine with values in [-1,1] and any increasing cube root; unfused arithmetic; where 0 times infinity is possible, results that are numbers", "why_tests_cant": "the order of two results one rounding step apart cannot be sampled; a violation would appear only for particular neighbouring arguments", "anchors": ["src/astrodynx/twobody/_orb_integrals.py:radius_periapsis", "src/astrodynx/twobody/_orb_integrals.py:radius_apoapsis", "src/astrodynx/twobody/_orb_integrals.py:a_from_pe", "src/astrodynx/twobody/_orb_integrals.py:semipara_from_ae", "src/astrodynx/twobody/_orb_integrals.py:equ_of_orbit", "src/astrodynx/twobody/_orb_integrals.py:orb_period", "src/astrodynx/twobody/_orb_integrals.py:a_from_period", "src/astrodynx/twobody/_orb_integrals.py:mean_motion", "src/astrodynx/twobody/_orb_integrals.py:semiparameter", "src/astrodynx/twobody/_orb_integrals.py:semimajor_axis", "src/astrodynx/twobody/_kep_equ.py:mean_anomaly_elps", "src/astrodynx/twobody/_kep_equ.py:kepler_equ_elps", "src/astrodynx/twobody/_kep_equ.py:kepler_equ_hypb", "src/astrodynx/twobody/_kep_equ.py:kepler_equ_uni", "src/astrodynx/twobody/_path_check.py:rp_islower_rmin", "src/astrodynx/twobody/_path_check.py:nmax_by_periapsis", "src/astrodynx/events/radius.py:radius_islow", "src/astrodynx/gravity/_general.py:point_mass_grav"]}
{"id": "C102", "title": "Angles of rv2coe stay below 2 pi, and the inclination below pi, in floating point", "statement": "Every right ascension, argument of periapsis and true anomaly that rv2coe returns is a number in [0, 2 pi), every inclination a number in [0, pi], for the true pi. (True in float64. False in float32, where the rounded pi exceeds pi: the right ascension is at or above 2 pi exactly if arctan2 returned a value in (-2^-22, 0), and an exactly retrograde equatorial orbit has an inclination above pi.)", "quantifier": "all states and mu, results that are numbers, any arctan2 and arccos with values within the rounded pi", "why_tests_cant": "the offending directions fill an interval of 2e-7 rad just below the x axis; random tests do not hit it and comparisons with a tolerance hide it", "anchors": ["src/astrodynx/twobody/_orb_elements.py:rv2coe", "src/astrodynx/twobody/_orb_elements.py:right_ascension", "src/astrodynx/twobody/_orb_elements.py:inclination"]}
{"id": "C103", "title": "Conversions between a and p, and the anomaly over one period, survive rounding", "statement": "In float64 and float32, a_from_pe(semipara_from_ae(a, e), e) and semipara_from_ae(a_from_pe(p, e), e) return the argument within 3 units of roundoff for every eccentricity other than exactly 1, however near to 1 and also for hyperbolas; at eccentricity 1 both are NaN. The mean anomaly gathered over one computed period is 2 pi within 11 units of roundoff.", "quantifier": "all finite a, p, mu in stated ranges of exponents (2^-200..2^200 in float64, 2^-50..2^50 in float32 for a and p), all finite eccentricities up to 2^400 (2^30); any math library", "why_tests_cant": "near a parabola 1 - e^2 loses almost all its digits, so each conversion alone is inaccurate; that the errors cancel for every e is a statement about all floats near 1", "anchors": ["src/astrodynx/twobody/_orb_integrals.py:a_from_pe", "src/astrodynx/twobody/_orb_integrals.py:semipara_from_ae", "src/astrodynx/twobody/_orb_integrals.py:orb_period", "src/astrodynx/twobody/_kep_equ.py:mean_anomaly_elps"]}
{"id": "C104", "title": "A time of flight of exactly one period allows one revolution", "statement": "nmax_by_periapsis(a, a, a, orb_period(a, mu), mu) is at least 1. (True in exact arithmetic for any whole number of periods. False in float64 and float32 with every math library: for a = 6601, mu = 398600 the float64 result is 0, for a = 6600 the float32 result is 0. The count is right whenever the time of flight exceeds the whole number of periods by 13 units of roundoff, and never exceeds the true count for a time of flight longer by 13 units.)", "quantifier": "all positive finite a and mu", "why_tests_cant": "the floor is taken of a number that is 1 up to rounding; whether it is below 1 depends on the last bits of a and mu, and tests compare with a time of flight well inside an interval", "anchors": ["src/astrodynx/twobody/_path_check.py:nmax_by_periapsis", "src/astrodynx/twobody/_orb_integrals.py:orb_period"]}
{"id": "C105", "title": "kepler picks the right kind of conic", "statement": "The alpha that kepler computes from the state is finite, positive for a state of negative energy and negative for a state of positive energy, whenever the energy exceeds 16 units of roundoff of |v|^2/2 + mu/|r|; and it is zero for a state that is exactly parabolic. (The last part is false in float64 and float32: r = (10,0,0), v = (1,1,0), mu = 10 gives alpha = -2^-55 and 2^-26.)", "quantifier": "all finite states and mu in stated ranges of exponents, any math library, float64 and float32", "why_tests_cant": "the sign of a difference of two nearly equal rounded numbers decides which formulas are used; tests use states well away from the parabola or the parabola with r = 1, v = (0, sqrt 2)", "anchors": ["src/astrodynx/prop/_kepler.py:kepler", "src/astrodynx/twobody/_uniformulas.py:ufunc2"]}
{"id": "C106", "title": "kepler follows a parabola", "statement": "From a state that is exactly parabolic and not radial, kepler returns a position within a twentieth of the true distance. (False in float64 and float32, with every math library that is correctly rounded on tiny arguments: where |alpha| chi^2 is below 9/10 of a unit of roundoff and alpha is not zero, the universal functions lose U2 and U3 altogether and kepler returns the point r + t v of the straight line, within 42 units of roundoff and the tolerance of the solver.)", "quantifier": "all finite states, mu and times in stated ranges of exponents; any math library whose cos and cosh are 1 and whose sin and sinh are the identity where x^2 is at most one unit of roundoff, which holds if they are correctly rounded", "why_tests_cant": "the loss needs alpha tiny but not zero, which only rounding produces; tests of the parabola use states whose computed alpha is exactly zero", "anchors": ["src/astrodynx/prop/_kepler.py:kepler", "src/astrodynx/twobody/_uniformulas.py:ufunc2", "src/astrodynx/twobody/_uniformulas.py:ufunc3"]}
{"id": "C107", "title": "Exchanging the axes x and y exchanges the result, bit for bit", "statement": "In float64 and float32, with any math library: kepler on a state whose x and y are exchanged returns the rows of the original call with x and y exchanged, every bit the same; the blocks of dxdx0 have their first two rows and columns exchanged, and the gravity terms, radius_islow, the norms and sigma follow in the same way. The angular momentum is exchanged and changes its sign and the eccentricity vector is exchanged, both up to the sign of a zero; their norms, rp_islower_rmin, is_short_way and pass_perigee do not change. With C96 a quarter turn about z turns the result of kepler up to the sign of a zero. (Exchanging y and z instead can change already the norm in the last bit.)", "quantifier": "all float64 (float32) inputs, NaN and infinities included, and every math library", "why_tests_cant": "equality of all bits for all states can only be sampled by tests, and tests compare with tolerances", "anchors": ["src/astrodynx/prop/_kepler.py:kepler", "src/astrodynx/twobody/_state_trans.py:dxdx0", "src/astrodynx/twobody/_orb_integrals.py:eccentricity_vector", "src/astrodynx/twobody/_path_check.py:is_short_way", "src/astrodynx/twobody/_path_check.py:pass_perigee", "src/astrodynx/twobody/_path_check.py:rp_islower_rmin", "src/astrodynx/gravity/_general.py:point_mass_grav", "src/astrodynx/gravity/_general.py:j2_acc", "src/astrodynx/gravity/_general.py:j3_acc", "src/astrodynx/gravity/_general.py:j4_acc", "src/astrodynx/events/radius.py:radius_islow"]}
{"id": "C108", "title": "Flushing subnormal numbers to zero changes no result unless a subnormal number appears", "statement": "JAX runs on the CPU with subnormal operands and results replaced by zero. If no constant or intermediate result of a call is subnormal or within a factor of two of that, kepler, solve_kepler_uni, dxdx0, angular_momentum, eccentricity_vector, semimajor_axis, rv2coe, coe2rv, orb_period, the mean anomalies, nmax_by_periapsis, point_mass_grav, j2_acc, j3_acc, j4_acc and radius_islow return the same bits with flushing as without, the path checks give the same answers and the same exceptions are raised. (Without the condition it is false: with r = 3*2^41 and mu = 1 in float32, r = 7*2^338 in float64, point_mass_grav loses an acceleration that is itself a normal number.)", "quantifier": "all inputs that are not subnormal (or within a factor of two of that), infinities and NaN included, such that the guarded run of the same program meets no such number; float64 and float32, any math library, any batch of times, any number of Newton steps", "why_tests_cant": "tests run on one machine with one setting of the processor switches; whether an intermediate result is subnormal is not visible in the output", "anchors": ["src/astrodynx/prop/_kepler.py:kepler", "src/astrodynx/twobody/_kep_equ.py:solve_kepler_uni", "src/astrodynx/twobody/_state_trans.py:dxdx0", "src/astrodynx/twobody/_orb_elements.py:rv2coe", "src/astrodynx/twobody/_orb_elements.py:coe2rv", "src/astrodynx/twobody/_orb_integrals.py:orb_period", "src/astrodynx/twobody/_path_check.py:pass_perigee", "src/astrodynx/gravity/_general.py:point_mass_grav", "src/astrodynx/gravity/_general.py:j4_acc", "src/astrodynx/events/radius.py:radius_islow"]}
{"id": "C109", "title": "The elliptic Kepler solver returns a finite number in floating point", "statement": "In float64 and in float32, for |e| <= 1 - 2^-k and |M| <= 2^m, solve_kepler_elps returns a finite number, of size at most 2^(m+1+max_iter*(k+2)) - never NaN or infinity - as long as that bound does not overflow, whatever the tolerance (NaN included). With the default limit of 20 steps this covers e <= 1 - 2^-48, |M| <= 2^20 in float64 and e <= 15/16, |M| <= 64 in float32, however badly Newton's method behaves on the way.", "quantifier": "all finite M and e in these ranges (negative ones included), any tolerance, any number of steps, any math library whose sine and cosine of finite numbers are finite and at most 1 in size", "why_tests_cant": "a division by a tiny 1 - e*cos(E) can throw an iterate anywhere; tests see only a few starting points", "anchors": ["src/astrodynx/twobody/_kep_equ.py:solve_kepler_elps"]}
{"id": "C110", "title": "The hyperbolic Kepler solver solves Kepler's equation in floating point", "statement": "For e >= 2 solve_kepler_hypb run in float64 or float32 returns a finite number H that differs from the solution X of e*sinh X - X = N by at most 2.2*(tol/(e*cosh X) + delta*(|X|+4) + (|X|+31)*2^-53) + 1e-19 (2^-24 in float32), where delta is the relative error of sinh, cosh and log. It holds after periapsis (N >= 0) and, as long as the first guess does not cancel too far, before it (N <= 0). It needs at least 12 permitted steps; the default is 50.", "quantifier": "all finite e from 2 to 2^1000 and N with -2^18*e <= N <= 2^100*e and |N| <= 2^1000 (float32: e, |N| up to 2^100 and -2^4*e <= N <= 2^40*e), every tolerance >= 0 including 0, any math library accurate to delta <= 1e-5, every step limit >= 12", "why_tests_cant": "tests compare with the equation at a few points; how rounding errors of the guess, the residual and the slope add up over the steps can only be bounded by analysis", "anchors": ["src/astrodynx/twobody/_kep_equ.py:solve_kepler_hypb", "src/astrodynx/twobody/_kep_equ.py:kepler_equ_hypb", "src/astrodynx/twobody/_kep_equ.py:dH"]}
{"id": "C111", "title": "From elapsed time to eccentric or hyperbolic anomaly in floating point", "statement": "Computing the mean anomaly from a, dt and mu with mean_anomaly_elps or mean_anomaly_hypb and passing it to the matching solver gives, in float64 and in float32, a finite number close to the exact anomaly at that time. Let M be the exact mean anomaly sqrt(mu/|a|^3)*dt and X the exact solution of Kepler's equation. On an ellipse with e <= 3/4 the error is at most 5e-12 + 29*delta + (29|M| + 127)*2^-53 (2^-24 in float32), where delta is the absolute error of sin and cos; with e <= 9/10 it is at most 2e-11 + 49*delta + (65|M| + 287)*2^-53. On a hyperbola with e >= 2 it is at most 2.3*(tol/(e*cosh X) + delta*(|X| + 4) + (|X| + 36)*2^-53) + 1e-19; for e >= 6/5 it is at most 3.2*tol/(e*cosh X - 1) + 4.2*(delta*(|X| + 13) + (|X| + 72)*2^-53) + 1e-19: the rounding of M costs only a few units, however large M is.", "quantifier": "all finite a, dt, mu with mu > 0 and a^3, mu/a^3, M between 2^-1020 and 2^1020 in size or zero (float32: 2^125); ellipse: 0 <= e <= 3/4 with at least 10 permitted steps or 0 <= e <= 9/10 with at least 17, |M| <= 2^33 (float32: 50), default tolerance; hyperbola: 6/5 <= e <= 2^1000 (or 2 <= e for the sharper bound), -2^17*e <= M <= 2^99*e, |M| <= 2^999 (float32: 2^100, 2^3, 2^39, 2^99), every tolerance >= 0, at least 12 permitted steps; every math library accurate to delta", "why_tests_cant": "tests check each function alone at a few points; how the rounding of the mean anomaly passes through the solver depends on the slope of Kepler's equation at every point", "anchors": ["src/astrodynx/twobody/_kep_equ.py:mean_anomaly_elps", "src/astrodynx/twobody/_kep_equ.py:mean_anomaly_hypb", "src/astrodynx/twobody/_kep_equ.py:solve_kepler_elps", "src/astrodynx/twobody/_kep_equ.py:solve_kepler_hypb"]}
{"id": "C112", "title": "The hyperbolic Kepler solver in floating point down to e = 6/5", "statement": "For e >= 6/5 solve_kepler_hypb run in float64 or float32 returns a finite number H that differs from the solution X of e*sinh X - X = N by at most 3*tol/(e*cosh X - 1) + 4.1*(delta*(|X|+13) + (|X|+70)*2^-53) + 1e-19 (2^-24 in float32), where delta is the relative error of sinh, cosh and log. It holds after periapsis (N >= 0) and, as long as the first guess does not cancel too far, before it (N <= 0). It needs at least 12 permitted steps; the default is 50. C110 gives a sharper bound for e >= 2.", "quantifier": "all finite e from 6/5 to 2^1000 and N with -2^18*e <= N <= 2^100*e and |N| <= 2^1000 (float32: e, |N| up to 2^100 and -2^4*e <= N <= 2^40*e), every tolerance >= 0 including 0, any math library accurate to delta <= 1e-5, every step limit >= 12", "why_tests_cant": "tests run one or two hyperbolas; for e near 1 the slope at periapsis is small, the first guess may lie on either side of the root and a step may overshoot, and only analysis shows that this never spoils convergence", "anchors": ["src/astrodynx/twobody/_kep_equ.py:solve_kepler_hypb", "src/astrodynx/twobody/_kep_equ.py:kepler_equ_hypb", "src/astrodynx/twobody/_kep_equ.py:dH"]}
{"id": "C113", "title": "The universal Kepler solver and kepler on ellipses with e <= 3/5 in floating point", "statement": "For an ellipse of eccentricity at most 3/5 (its square is (1 - alpha*r0)^2 + alpha*sigma0^2), solve_kepler_uni run in float64 or float32 returns a finite number chi, whatever the tolerance. With q = sqrt(alpha) and m = q^3*sqrt(mu)*dt it differs from the unique solution x of the universal Kepler equation by q*|chi - x| <= 2.5*q^3*tol + 205*(c+16)*(1+|m|)*2^-53 (2^-24 in float32). If tol is above the rounding noise, that is 350*(c+16)*(1+|m|)*2^-53 <= q^3*tol, the loop stops after at most 20 steps. So kepler on such an orbit needs no assumption about its loop: it returns, at each requested time t, a position and velocity within a stated rounding bound of an exact orbit that starts within a few units of rounding (times X*(2mu/X+V^2)/(V*H) for the velocity, where X, V, H are the lengths of r, v and r x v) of the given state, taken at a time t' with sqrt(mu)*|t'-t| <= tol + 330*(c+16)*(1+|m|)*2^-53/q^3. This holds in particular for every given state whose own eccentricity, the length of its exact eccentricity vector, is at most 0.599.", "quantifier": "all finite alpha in [2^-100, 2^100] (kepler: [2^-99, 2^98]), r0 > 0, sigma0, dt, mu > 0 of size between 2^-100 and 2^100 (sigma0 may be 0), eccentricity at most 3/5, 2^-34 <= |m| <= 2^28 (float32: alpha in [2^-14, 2^6], 2^-6 <= |m| <= 2^4 and correspondingly smaller ranges), both signs of dt, every tolerance >= 0 including 0, every step limit >= 20, any math library accurate to c <= 8 units; for the last sentence |r| between 2^-97 and 2^97 (float32: 2^-5 and 2^12) in place of the range of alpha", "why_tests_cant": "tests propagate a few orbits; that the Newton iteration in rounded arithmetic reaches the root from every phase and over thousands of revolutions, and never settles on a cycle away from it, needs an argument about all starting points", "anchors": ["src/astrodynx/twobody/_kep_equ.py:solve_kepler_uni", "src/astrodynx/twobody/_kep_equ.py:kepler_equ_uni", "src/astrodynx/twobody/_kep_equ.py:dchi", "src/astrodynx/prop/_kepler.py:kepler"]}
