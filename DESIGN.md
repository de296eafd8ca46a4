# Formal model of astrodynx: design

Source under study: `/repo` (python, JAX), read as text and never run.
Development: `/verif/rocq/theories`, Coq 8.16.1, namespace `Verif`.

## 1. What is modelled and how

### 1.1 One generic model, several arithmetics

Every numeric function of `src/astrodynx` is written once, as Gallina code generic
in a class `Num T` (`Num.v`) that contains operations only (`+ - * /`, `sqrt`,
`sin`, `<`, literals, ...) and no laws. The model files mirror the python files one
to one and each definition cites file and lines:

| model file | python file |
|---|---|
| `OrbIntegrals.v` | `twobody/_orb_integrals.py` |
| `Uniformulas.v`  | `twobody/_uniformulas.py` |
| `Lagrange.v`     | `twobody/_lagrange.py` |
| `KepEqu.v`       | `twobody/_kep_equ.py` |
| `OrbElements.v`  | `twobody/_orb_elements.py` |
| `StateTrans.v`   | `twobody/_state_trans.py` |
| `PathCheck.v`    | `twobody/_path_check.py` |
| `PropKepler.v`   | `prop/_kepler.py` |
| `Cowell.v`       | `prop/_cowell_method.py` |
| `Gravity.v`      | `gravity/_general.py`, `events/radius.py` |
| `RotMat.v`       | `utils/_rot_mat.py` |
| `Nd.v`, `NdModel.v` | the same functions on arrays with shapes |
| `Trace.v`        | `.item()` in `prop/_kepler.py` under JAX transformations |
| `Dt.v`, `DtModel.v` | dtypes of `_uniformulas.py`, the solvers and `prop/_kepler.py` |

Instances of `Num`:

| file | arithmetic | used for |
|---|---|---|
| `NumR.v` | exact reals | C01-C20, C23-C28, C30-C43, C45, C46, C50, C51 |
| `NumX.v` | reals with `+inf`, `-inf`, `NaN`, one unsigned zero; and a signalling variant | C47, C52 |
| `NumB32.v` | IEEE binary32 (Flocq), any libm | C29, C58, C59, C63, C65-C68, C77-C83, C86, C87, C90-C100 |
| `NumB64.v` | IEEE binary64 (Flocq), any libm | C60-C62, C64, C74-C83, C86, C87, C90-C100 |
| `NumJ.v` | Python ints and floats, int32 and float32 arrays, mixed | C71-C73 |
| `NumD.v` | value and derivative, over exact reals | C49, C56, C57, C88, C89 |
| `NumV.v`, `Reverse.v` | value and backward pass, over exact reals | C84, C85 |
| `NumW.v` | binary32 or binary64 giving up near the ends of the range (not the program: a hypothesis) | C99, C100 |
| `Trace.v` | numbers that may be unknown while tracing | C49 |
| `Nd.v` | arrays with broadcasting | C48, C53-C55 |

Theorems about control flow (C21, C22, C42, C44, C49_tracing) are proved for every
`Num T`, so they hold for the floats the code runs on, NaN included.

Coq totalises `x/0 = 0`, `sqrt(-x) = 0`, `ln(-x) = 0` over `R`. Theorems carry the
guards that keep the code away from these points; C52 shows in `NumX` that on the
stated domains no exceptional value appears.

### 1.2 Loops, arrays, errors

* `jax.lax.while_loop` is `while_fuel`, with fuel `S max_iter`; C22 proves the
  fuel is never exhausted and that the result is the one of the big-step relation
  `While`.
* `jax.vmap` of a `while_loop` is `vwhile_fuel`: all lanes step until no lane wants
  to continue, finished lanes keep their value (the batching rule of JAX).
* Outside `Nd*.v` a `(..., 3)` array is one row (`V3`), and the batch axis of
  `kepler` is a list.
* `jax.lax.cond` is modelled by the value of the taken branch.
* Dictionaries are association lists; `KeyError` is an error value. `x[i]` past the
  end clamps, as in JAX.
* `diffrax.diffeqsolve` is an argument of the Cowell model. Statements about the
  rows it returns assume that it meets `SpecInteg.follows`.

### 1.3 Assumptions about JAX

These come from reading JAX's documented behaviour. Nothing here was run.

* The batching rule of `while_loop` above.
* `Array.item()` returns the value of a known array, raises on the tracers of `jit`
  and `vmap`, and drops the derivative under `jvp`/`jacfwd` (header of `Trace.v`).
  C49 and C57 rest on this.
* Forward mode applies the calculus rule of each primitive and branches by value
  (header of `NumD.v`); reverse mode sends the cotangent of each primitive to its
  operands (header of `NumV.v`) and has no rule for `while_loop` (header of
  `Reverse.v`). C56, C57, C84 and C85 rest on this.
* Broadcasting follows numpy's rules (`Nd.v`).
* Type promotion on int32, int64, float32, float64 and Python numbers is the chain of
  the JAX documentation; `lax.cond` compares the dtypes of both branches and
  `lax.while_loop` those of the carried value before and after the body, ignoring weak
  types (`Dt.v`). C69 and C70 rest on this.
* Two Python numbers combine as in Python; a Python int beyond int32 cannot meet an
  array when x64 is off; int32 arithmetic wraps (`NumJ.v`). C71-C73 rest on this.
* float32 is the default, because nothing in `/repo/src` enables x64; the notebooks
  under `/repo/docs/examples` and the benchmark do (`jax_enable_x64`), so the same
  questions are asked of float64. `+ - * / sqrt` are rounded to nearest even, one at
  a time, with subnormals kept (headers of `NumB32.v`, `NumB64.v`), and every
  operand has the same precision (C71 shows that Python constants do not change this). XLA may fuse a multiplication with an addition and
  may flush subnormals; C108 says when this changes nothing (`NumF.v`). C58_universal, C58_hyperbolic, C29_far, C29_refuted, their
  float64 versions C60 and C61, and C63, C64 (whose refutations need the product
  rounded before the difference is taken), C65-C68, C74-C83, C86, C87 and C90-C113 are stated for the unfused form
  (C78-C83, C86, C87 and C90-C113 also for sums taken from left to right).

### 1.4 Not modelled

Dtypes other than the instances above (booleans, unsigned, 8 and 16 bit, complex),
dtypes of functions not in `DtModel.v`, device placement, XLA's freedom to reassociate sums, the text of error
messages, the inside of diffrax, plotting and
documentation. Theorems over `NumR` speak about exact arithmetic. The results about
rounding are C29, C58-C68, C71-C83, C86, C87 and C90-C113.

### 1.5 Checks of the model against the source

`DocExamples.v` evaluates the model in binary32, with the concrete libm of
`LibmRef.v`, on the inputs of docstrings and of `tests/test_path_check.py`, and
compares with the outputs written there (57 examples, each with file and lines).
They test the transcription. They are not properties, and since the code was not
run they compare with what the authors wrote down, not with a run. Docstrings
without a numeric output (the Cowell wrappers) are not covered.

## 2. Specification

`Spec.v` and `SpecAd.v`, `SpecAnom.v`, `SpecDt.v`, `SpecFl.v`, `SpecFl32.v`, `SpecFl64.v`, `SpecFlV.v`, `SpecFlAng.v`, `SpecGrav.v`, `SpecInteg.v`, `SpecJ.v`, `SpecNd.v`, `SpecRev.v`,
`SpecPath.v`, `SpecX.v` define the vocabulary of the properties without model
functions: vectors as triples, the two-body equation of motion, Legendre
potentials, partial derivatives, conics, revolutions, transfer arcs, what an
integrator should do, what broadcasting promises. `Props*.v` contain the property
theorems with their `Print Assumptions`, and examples; the proofs are elsewhere:

| theorems | properties | proofs |
|---|---|---|
| `PropsOrbit` | C01-C05 | `OrbFacts`, `OrbFacts2` |
| `PropsUniversal` | C06-C09 | `SeriesU`, `UFacts`, `OrbFacts2` |
| `PropsKepler` | C10-C17 | `KepState`, `KepMotion`, `KepRows`, `TwoBody`, `KepExamples`, `KepExamples2` |
| `PropsStm` | C18-C20 | `Stm*` |
| `PropsLoops` | C21, C22 | `LoopFacts`, `LoopExamples` |
| `PropsSolvers` | C23-C28, C46 | `Solve*`, `Classical` |
| `PropsB32` | C29, C58, C59, C63 | `B32*`, `AccLib` |
| `PropsB64` | C60-C62, C64 | `B64*`, `AccLib` |
| `PropsFl` | C65-C68 | `RelLib`, `B32Rel`, `B32Closed`, `B32Cancel`, `B32Grav`, `B32Fl` |
| `PropsFl64` | C74-C76 | `RelLib`, `B64Rel`, `B64Closed`, `B64Cancel`, `B64Grav`, `B64Fl` |
| `PropsNewton`, `PropsNine` | C77 | `NewtonFl`, `B32Newton`, `B64Newton`, `ElpsNine`, `B32Nine`, `B64Nine` |
| `PropsRound` | C78, C79 | `RoundAn`, `B32An`, `B64An`, `B32Geo`, `B64Geo`, `B32Path`, `B64Path`, `GeoExamples` |
| `PropsRound2` | C80-C83 | `RoundFn`, `UfReal`, `B32Coe`, `B64Coe`, `B32Uf`, `B64Uf`, `B32Uvi`, `B64Uvi`, `B32Stop`, `B64Stop`, `Fine32`, `Fine64`, `UviExamples` |
| `PropsRound3` | C86 | `BackReal`, `B32Back`, `B64Back`, `BackExamples` |
| `PropsRound4` | C87 | `SqrtSqr`, `AngReal`, `B32Ang`, `B64Ang`, `AngExamples` |
| `PropsRound5` | C90, C91 | `StmReal`, `B32Stm`, `B64Stm`, `B32Dx`, `B64Dx`, `StmFlExamples` |
| `PropsRound6` | C92, C93 | `B32Per`, `B64Per`, `PerExamples`, `B32Ev`, `B64Ev`, `EvExamples` |
| `PropsRound7` | C94, C95 | `SqrtSqr2`, `B32Past`, `B64Past`, `PastExamples`, `B32Zero`, `B64Zero`, `ZeroExamples` |
| `PropsMirror` | C96-C98 | `SpecMirror`, `SgnCalc`, `SgnCalc2`, `SgnCalc3`, `SgnFloat`, `B32Mirror`, `B64Mirror`, `MirrorExamples`, `SgnCalc4`, `B32Odd`, `B64Odd`, `OddExamples` |
| `PropsSwap` | C107 | `SpecSwap`, `SgnSwap`, `SwapFloat`, `SwapExamples` |
| `PropsFlush` | C108 | `NumF`, `SpecFlush`, `FlushCalc`, `FlushMain`, `FlushExamples` |
| `PropsFinite` | C109 | `ElpsFinite`, `FiniteExamples` |
| `PropsHypFloat` | C110 | `HypNewton`, `HypFloat`, `B64Hyp`, `B32Hyp` |
| `PropsTime`, `PropsTimeNear`, `PropsTimeWide` | C111 | `TimeReal`, `TimeReal6`, `B64Time`, `B32Time`, `B64Time6`, `B32Time6`, `B64Time9`, `B32Time9` |
| `PropsKuni` | C113 | `UniFloat`, `EccNear`, `B64Kuni`, `B32Kuni`, `KuniExamples` |
| `PropsHypNear` | C112 | `HypNear`, `HypFloat6`, `B64Hyp6`, `B32Hyp6` |
| `PropsUnits` | C99, C100 | `SpecUnits`, `UnitFloat`, `UnitCalc`, `UnitMain`, `UnitExamples` |
| `PropsOrder` | C101 | `SpecOrd`, `OrdFloat`, `OrdMain`, `OrdExamples` |
| `PropsRange` | C102 | `SpecRange`, `AngRange`, `RangeExamples` |
| `PropsTrip` | C103, C104 | `B64Trip`, `B32Trip`, `TripExamples` |
| `PropsTiny` | C105, C106 | `TinyReal`, `B64Flat`, `B32Flat`, `FlatExamples` |
| `PropsAdSolve` | C88, C89 | `AdElps`, `AdHypb`, `AdHypb2`, `AdHypb3` |
| `PropsElements` | C30-C34 | `RotFacts`, `Atan2`, `ElemFacts`, `ElemExamples` |
| `PropsPath` | C35-C38 | `PathFacts`, `PathMotion`, `PathExamples` |
| `PropsGravity` | C39-C43, C50 | `GravFacts`, `GravMore`, `GravExamples` |
| `PropsCowell` | C44 | `CowellFacts` |
| `PropsEqui` | C45, C51 | `Equi`, `EquiExamples` |
| `PropsX` | C47, C52 | `Lift`, `LiftMore`, `XFacts`, `XFacts2` |
| `PropsNd` | C48, C53-C55 | `Nd*` |
| `PropsDt` | C69, C70 | `DtFacts` |
| `PropsJ` | C71-C73 | `JFacts`, `JPy`, `JInt`, `JScalar` |
| `PropsAd` | C49, C56, C57 | `TraceLib`, `AdOps`, `AdFacts`, `AdKep`, `AdMore`, `AdCirc`, `AdGuess`, `AdFloor` |
| `PropsRev` | C84, C85 | `RevOps`, `RevFacts`, `RevPulls`, `RevKep`, `AdFloor` |

## 3. Properties

How each is proved, and what came out. The notes in `MANIFEST.json` say exactly
what is missing from each partial result.

* C01 formulas over R; `Rpower` cube root, field arithmetic.
* C02 vector algebra: `|v x h|^2`, Lagrange identity, `e^2 = 1 - p/a`; rectilinear
  and zero-energy states give `e = 1`, and otherwise `a` is `p / (1 - e^2)`.
* C03 triple product identities; `arctan2` recovers `cos f = e.r/(|e||r|)`.
* C04 `e.r = p - |r|` with Cauchy-Schwarz; monotonicity of the conic in `cos f`.
* C05 field arithmetic with `e^2 <> 1`.
* C06 `U_n = chi^n c_n(alpha chi^2)` with `c_n` a Coquelicot power series of
  infinite radius; the three code branches are matched with the series of
  sin/cos/sinh/cosh.
* C07 term-wise derivative of the power series; chain rule.
* C08 recurrences of the coefficients; Pythagorean and addition formulas through
  uniqueness of the linear ODE (or branch-wise trigonometric identities).
* C09 from the series.
* C10, C11, C12 polynomial identities modulo `U0^2 + alpha U1^2 = 1` etc. and
  `alpha = 2/r0 - v0^2/mu`; `sigma^2 = 2 r - alpha r^2 - p` gives the radius bound.
* C13 residual at `chi = 0` is zero so the loop does not run.
* C14 implicit function `chi(t)` (C16) is differentiable with derivative
  `sqrt mu / r`; differentiate F, G. Uniqueness: energy-type Gronwall estimate.
* C15 from uniqueness in C14.
* C16 derivative of the residual is the radius, bounded below by `p/(1+e)`;
  intermediate value theorem.
* C17 `sigma = sigma0 U0 + (1 - alpha r0) U1` and the residual identity.
* C18 implicit differentiation of the universal equation along an arbitrary
  differentiable curve of initial states, then comparison of coefficients.
* C19, C20 matrix identities from the explicit blocks.
* C21, C22 induction on loop fuel, for every `Num T`.
* C23, C24, C25 mean value theorem, monotonicity, convexity; induction on the loop
  for equivariance of the solver.
* C26 partial: proved for `e <= 0.997` (`NewtonConvex`: from right of the root of a
  convex log-concave function a Newton step divides the residual by the number e);
  refuted for `e` in [0.9972, 1) (a horseshoe between two windows).
* C27 partial: proved for `e >= 1.000125`, `|N| >= 1/33` or `|N| <= 33 (e - 1)`;
  refuted at `N = 1/186` for every `e` up to `1 + N^2`.
* C28 partial: proved for ellipses with `e <= 3/4` or launched near enough to an apsis
  (`|sigma0| <= (3.6 (1-e) - 0.15) sqrt a`), and for parabolas and hyperbolas at moderate times; refuted for every parabolic and hyperbolic state at late times, and
  for eccentric ellipses away from the apsides.
* C29 refuted in binary32: outside [-64, 64) the fictitious previous iterate rounds
  to the guess and no step is made.
* C30 trigonometric identities.
* C31 orthogonality of the rotation matrix, perifocal formulas.
* C32, C33 refuted: `arctan2(|.|, .)` has range [0, pi]. Full description of what is
  returned, plus the exact sub-domain where the round trip works.
* C34 range of `acos` and `arctan2`.
* C35, C36 polar description of the orbit plane; C36 refuted on boundary arcs.
* C37 C04 plus attainment.
* C38 monotonicity of the period; floor.
* C39, C40 partial derivatives; second derivatives for the divergence.
* C41 algebra.
* C42 generic in `Num T`, case analysis on the dictionary.
* C43 sign and intermediate value theorem.
* C44 the log of calls to the integrator; the documented initial step is refuted.
* C45 invariance of inner products under rotations; induction for the solver;
  homogeneity of the `U_n`.
* C46 closed forms of the `U_n` on the elliptic and hyperbolic branch.
* C47, C52 a lifting lemma carries exact results to `NumX`; C52 refuted for the two
  boolean predicates at `r = 0`; what each function returns for a NaN argument, and
  the meaningless inputs for which it returns an ordinary number.
* C48, C53-C55 broadcasting of index functions; C48 and part of C54 refuted.
* C49, C56, C57 maps that commute with all operations; calculus of dual numbers.
  C49 and C57 refuted, C56 refuted at zero energy only.
* C50 derivative of energy and axial momentum along the code's fields.
* C51 refuted: the tolerance is an absolute number.
* C58 floats of size 32 or more are spaced wider than the tolerance.
* C59 refuted for every libm: `1 - cos` is 0 or at least 2^-24. Further away a
  forward error analysis bounds the relative error by
  `9 delta / (alpha chi^2) + 42 * 2^-24`, `delta` the absolute error of the cosine.
* C60, C61, C62 are C29, C58, C59 in binary64 (thresholds 2^35, 2^34, 2^-55).
* C63, C64 the same for `ufunc3`: the difference of two floats of size `z` is 0 or at
  least `z * 2^-24` (`2^-53`), while `z - sin z` is about `z^3 / 6`.
* C65 products of factors between 1/(1+u) and 1+u (`RelLib`); C66, C68 absolute errors
  relative to a scale, because the brackets cancel.
* C67 refuted: `r**7` overflows binary32 from 2^19 on (low orbits in metres), the
  quotient is zero.
* C69, C70 case analysis on dtypes; for `kepler` a set of dtypes closed under all
  operations. Refuted for integers in `ufunc0`, `ufunc1` (the parabolic branch returns
  the dtype of `chi`), and for mixed widths under `jax_enable_x64`.
* C71 computation with the mixed arithmetic; the loops by induction. `a_from_period`
  differs from a pure float32 computation in the constant pi^2.
* C72 when a divisor rounds to zero (`round_plus_neq_0`); refuted at the parabola, where
  Python raises, and for a Python int `mu` in SI units.
* C73 modular arithmetic and the error lemmas of C65; refuted by wrapping.
* C74, C75, C76 are C65, C66, C68 in binary64, where the range reaches 2^1020 and the
  orbits of C67 lose nothing.
* C77 the real Newton step squares the error (factor 3/2 for e <= 3/4), a rounded step
  adds at most D; the starting guess is within 0.56 of the solution; the run ends after
  ten steps or by a last step below the tolerance, and both leave the stated error.
  For e <= 9/10 the mean anomaly is first brought into [0, pi] by whole turns and a
  reflection; the first step lands right of the solution and at most 1/50 beyond pi, each
  later step shortens the distance to 2/3 (convexity) until it is below 1/10, then the
  error is squared (factor 9/2), with D added each time.
* C78 a running error analysis (`RoundAn`): a computed number is kept together with an
  exact value, a bound m on its size and a count k, and is off by at most
  ((1+u)^k - 1) m; one lemma per operation, for any format, u slightly above the unit
  roundoff so that underflow is covered.
* C79 a comparison is right as soon as the exact sides differ by more than the error of
  C78; examples show decisions that are wrong closer to the boundary.
* C80-C83 the same analysis with sin, cos, sinh and cosh, whose arguments are themselves
  rounded (`RoundFn`: Lipschitz bounds turn the error of the argument into an error of the
  value). The math library is a hypothesis, accuracy `c` units on the arguments that occur;
  `Fine64` and `Fine32` construct libraries with `c = 6`, so the hypothesis can be met.
* C82 the loop lemmas of `LoopFacts` say that an early exit means a small rounded residual;
  C81 turns it into a small exact residual and the mean value theorem into a small error of
  the anomaly.
* C86 backward error. The rounded r0, sigma0 and alpha are the exact ones of a nearby state
  (`BackReal.nearby`: scale x, turn and scale v), and the rounded chi solves the universal
  equation exactly at a nearby time (C82), so the exact Lagrange combination is a point of
  an exact Kepler arc; C83 bounds the distance from it.
* C87 an angle is compared through the vector it points along (`polar64`), so no condition
  on the smallness of that vector is needed and the choice between pi and -pi does not
  matter. `SqrtSqr`: rounding z^2 and then its root never gives less than |z|, hence the
  cosine of the inclination stays in [-1, 1].
* C88 the tangents of the Newton iterates stay below 39 (|dM| + |de|) / (1 - e), because
  f f'' <= 3/4 f'^2 right of the solution; a step of at most the tolerance makes the last
  tangent nearly the implicit derivative, and twenty steps always end with such a step.
* C89 refuted: the hyperbolic loop accepts the guess before any step, and the guess has
  another derivative than the solution. For e >= 2, once a step is made: the tangent minus
  the implicit slope at the iterate obeys a contraction whose last factor is small because
  the residual after a step bounds the step from below. For e >= 6/5 the first step may go
  from left to right; it then overshoots by convexity and is treated apart (`AdHypb3`).
* C90, C91 `StmReal` turns the model's tensor formulas over the reals into Battin's; errors
  are carried entrywise through sums and products of 3x3 matrices, each entry measured
  against the product of the norms, so no entry is lost by cancellation.
* C92 a cube root divides the number of roundings by three (`near_cube`); the library is
  only asked to be accurate at floats.
* C93 a difference of two floats has the sign of the exact difference, so only the error of
  the norm matters for the sign of the event.
* C94 the square root of a rounded square is the number itself (`sqrt_sqr_eq`), and 1 is absorbed by
  that square, so x + sqrt(x^2 + 1) is exactly 0 for large negative x.
* C95 zeros are followed through the program by cases on the representation, so no rounding is
  involved; what remains is that no factor of a zero is infinite and no divisor is 0 or NaN.
* C96, C97 the sign of each intermediate result is tracked through the formulas (`SgnCalc`) from a
  few laws of rounded arithmetic (`SgnFloat`): rounding to nearest even commutes with negation,
  and only the sign of a sum that cancels to zero is not symmetric. For C97 the one divisor in which
  such a zero could appear is the radius; it is shown not to vanish.
* C98 the same, but the first stopping test compares with E0 + 2 tol, which is not symmetric: the
  test agrees for both signs unless E0 is exactly 64 or 2^35 in size (C29, C60).
* C99, C100 each intermediate result carries a power of two (`UnitCalc`); rounding commutes with
  powers of two away from underflow and overflow (`UnitFloat`). That no intermediate result comes
  near those is stated as: the program run in `Num_W` returns a number. A loop in `Num_W` whose test
  could not be decided ends with `None`, so a number means that every test was decided alike.
* C101 every operation rounds monotonically, with the infinities at the ends (`vR`, `clamp`);
  case analysis only where an infinity or a zero divisor can occur.
* C102 the sum 2 pi + angle is monotone (C101); its value at the two floats around -2^-22 is computed.
* C103 the same float 1 - e*e multiplies and divides, and it is zero only for |e| = 1 (squares of neighbours of 1 do not round to 1);
  so two roundings remain. C104 floor of C79's number; the counterexamples use only + - * / sqrt and are computed.
* C105 error of the two terms of alpha against the energy. C106 with cos = cosh = 1 and sin = id on tiny arguments (which correct
  rounding implies) U2 and U3 are computed as 0, so Kepler's equation becomes r0 U1 = sqrt(mu) t and F = 1, G = t.
* C107 for all inputs; it holds because the first two terms of every sum of three are added first (see the order of sums above).
* C108 the relation "the guarded run gave this value" is kept by every operation, with and without flushing; the walk through the
  program is that of C99 and C100.
* C109 the computed 1 - e cos E is at least 2^-(k+1) in size, so one step multiplies the size of the iterate by at most 2^(k+2).
* C110 from above a step squares the error (e >= 2), the guess is at most 7/10 above the root; each computed step adds at most
  delta (X + 4) + (X + 31) u. The proof is written once for any arithmetic that rounds and for both signs of N; for N < 0
  the cancelling first guess keeps (1 + 2t)^2 u <= 1/3000, t = 2|N|/e.
* C111 the solution moves by at most 4 |dM| (e <= 3/4) or 10 |dM| (e <= 9/10), and on a hyperbola by at most 2.1 |dM|/|M| (e >= 2) or 1.05 |dM|/|M| (e >= 6/5, from M <= e cosh X - 1).
* C112 same plan as C110 for e >= 6/5: the guess lies between 1/2 below and 7/10 above the root, a step from below leaves at most
  1.7 times the squared distance, and the slope e cosh H - 1 is at least e cosh H / 6.
* C113 with x = sqrt(alpha)*chi the universal equation is G(x) = x - e*sin(x + ph) + e*sin(ph) - m. For e <= 3/5 the slope lies in
  [2/5, 8/5], so a Newton step takes an error d to at most 3/4 d^2 plus rounding; the guess is within 1.21, `bd` bounds
  the error sequence and after 20 steps only rounding is left. `C113_kepler` feeds this into the backward error argument of C86.
  `C113_eccentricity` needs no separate distance from a straight line: e <= 0.599 gives |r x v|^2 >= mu |r| / 4 (`ecc_wide`).
* C84 a backward pass paired with the speeds of the inputs is the tangent of forward mode
  (`RevOps`), operation by operation, so C56 carries over.
* C85 refuted: the dependence of the carried value is tracked by a flag (`live`); in the
  state the argument is that of C49.

## 4. Places where documentation and code differ

Found while modelling; lines are in `/repo/src/astrodynx`.

* `_orb_integrals.a_from_period`: the docstring formula has a square root, the code a
  cube root.
* `_cowell_method.adaptive_steps` (:272): the documented initial step is not passed.
* `_state_trans.pvpv0`: the power of the radius in the docstring differs from the code.
* `rv2coe`, `eccentricity_vector`: "broadcast-compatible" `mu` must be a scalar or have
  a trailing axis of length 1, while `coe2rv` wants it flat (C48, C54).
* `_kep_equ.solve_kepler_hypb` documents no restriction on N; for N below -4096 e (float32) it
  returns -inf (C94).
* `docs/basics.rst` shows `kepler` under `jit`, `vmap` over states and `jacfwd` (C49).

## 5. Tests of the theorems

`seeded/LOG.jsonl` has one line per edit of the model made in a scratch copy. After
an edit every proof that stops checking is replaced by `Admitted` (in the copy) and
`theorems_failed` lists the property theorems that then rest on one of these.

`theorems_failed` is weak evidence and must not be read as a detection rate. A listed
theorem is one whose *proof* no longer goes through; its statement may still be true
of the edited program. Lines marked `control` are edits that do not change the
function over the reals. All 8 of them broke proofs (6 to 36 property theorems each),
as many as real bugs in the same functions, because most theorems reach a model
function through one lemma that restates it literally. So a non-empty list says
nothing about whether a theorem can tell a right program from a wrong one.

Two things are reliable:

* a theorem that is *not* listed is still proved for the edited program
  (`theorems_still_proved` counts them), which is how weak theorems are found;
* `statement_refuted_by`, where present, names a lemma of `Mutants*.v`: the wrong
  function is defined beside the model and the statement of the named property
  theorem, with the wrong function in place of the right one, is proved false.

A bug whose line has no `statement_refuted_by` has not been shown to be detected.
Proofs that ran into the time limit are listed separately. Runs in which a compiler
process was killed are thrown away and repeated.

Weaknesses found this way: `C21_solver` named the default arguments instead of giving
their values and so was true for any defaults (tightened, and `C22_*_default` added);
`C34_node_direction` took the node from the program's own node vector (tightened: the
node is now written as z x h); `C44_forward` said too little about what is saved, how
many steps are allowed and which solver is used (tightened: every setting is stated);
`C42_errors` assumed three components and so said nothing about clamped indices
(tightened, and `C42_short` added); `C19_flow_field`, `C20_inverse` and
`C20_symplectic` cannot see a wrong `C_func` because it cancels, `C18` does;
`C10_area_preserving` is an identity in `sigma0` and `alpha` and cannot see a wrong
`sigma_fn`, which `C12_radius` does; `C24_unique` and `C24_near` also hold with the
sign of the sine term of Kepler's equation reversed, which `C24_derivative` excludes.

## 6. Trusted base

* The Coq 8.16.1 kernel, including its virtual machine (`vm_compute` is used in the
  binary32 and binary64 examples and constants).
* Axioms: those printed by `Print Assumptions` under every theorem of `Props*.v`.
  They are all from Coq's standard library:
  `ClassicalDedekindReals.sig_not_dec`, `ClassicalDedekindReals.sig_forall_dec`,
  `FunctionalExtensionality.functional_extensionality_dep`, and
  `Classical_Prop.classic`. The development adds none. Coquelicot and Flocq are used
  as libraries and contribute no further axiom.
* The reading of the python source that the model files record, and the assumptions
  of section 1.3.
