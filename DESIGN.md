# Design

Formal model of the snow-slab library `weac` (source text in /repo) in Rocq/Coq 8.16.1.
The code was read, never executed.

## Approach

* The numerical core is modelled function by function as Gallina functions over the
  real numbers `R` of the standard library. Vectors (u,u',w,w',psi,psi') are records,
  numpy arrays are lists, matrices handed to the linear solver are functions
  `nat -> nat -> R` with slice assignment.
* Python exceptions are values (`res A := Ok a | Err e`), NaN is `None`.
* The mutable model object is a record; methods that mutate it are state-passing.
* External numerical routines are parameters: `np.linalg.eig`, `np.linalg.solve`,
  `scipy.optimize.brentq`, `scipy.integrate.quad`. What a theorem needs from them is an
  explicit hypothesis of that theorem (eigenpairs are eigenpairs, the returned vector
  solves the linear system, a returned root is a root inside the bracket, ...).
* Derivatives and integrals use Coquelicot (`is_derive`, `RInt`).

## Idealisation (part of the trusted base)

* Floating point numbers are modelled by exact real numbers: no rounding, overflow,
  signed zeros or infinities. C113 bounds what the two large numerical steps can do to
  the result: it allows `eig` and `solve` to leave residuals and bounds the error of the states;
  C114 does the same for energy release rates and inexact `quad`.
  C118 replaces the absolute residual of the solver by the relative one that backward stable methods have.
* Division by zero: in `R` `x/0` is a fixed junk value. Every theorem whose formula
  divides has hypotheses that exclude zero denominators, and C04/C09 show that
  admissible input meets them.
* Timing, printing and plotting with matplotlib are not modelled.

## Modelled and not modelled

Modelled: all of `weac/eigensystem.py`, `weac/tools.py` (except `time`, `isnotebook`), `weac/mixins.py` (field quantities, slab contact, solution, analysis, output),
`weac/layered.py`, `weac/inverse.py` (class structure), the computing functions of
`examples/criterion_check.py`, and the computations of `weac/plot.py`: outline, colour limit, contour
levels, digits, `MidpointNormalize`, and what the figures show (positions, colours, limits, shading, marks
and labels).

Not modelled, with the reason:

* matplotlib drawing (styles, `ax2data`, `save_plot`); elapsed times and printed text.
* Infinities: `1/psi`, `1/w` in `substitute_stiffness` for zero deflection; the division by
  `dist_max = 0` in the force search.
* A negative base of `**` with a real exponent (complex in Python).
* The strategy of `brentq`: an oracle chooses the next point from the history; more than `maxeval`
  evaluations stand for no convergence (RuntimeError).
* Integer arrays of stresses: `np.zeros_like` truncates the result of `failure_envelope_mede` and
  `failure_envelope_chandel` to integers.
* Aliasing between objects, except the list arguments of `assemble_and_solve` (`MArgs.v`).
* `layers if layers else ...` with an ndarray raises ValueError; layers are lists here.
* Integers too large for a float: OverflowError is represented by ValueError in `colour_limit`.
* Text outside ASCII; `MidpointNormalize` with coinciding limits.

## Trusted base

* Coq's kernel, and the statements in the `Prop*.v` files with the definitions they use
  (`M*.v` model, `S*.v` specifications).
* Axioms: `Print Assumptions` follows every theorem in the `Prop*.v` files. The union is
  `ClassicalDedekindReals.sig_forall_dec`, `ClassicalDedekindReals.sig_not_dec`,
  `FunctionalExtensionality.functional_extensionality_dep`, `Classical_Prop.classic`
  (all from the standard library, brought in by `Reals` and Coquelicot). No own axioms.
* The idealisation above (exact reals), and the oracle hypotheses named in each theorem.

## Files

* `M*.v`: the model. `MTools` (layers, stiffness, loads), `MEigen` (laminate, foundation,
  eigen system, object, setters), `MFields` (fundamental solutions, stresses, sections),
  `MSolution` (bc, assembly, touchdown, segments), `MRaster` (rasterisation, derivatives),
  `MAnalysis` (energy release rates, slab stresses, potentials, output arrays), `MClass` (class table generated from the source).
  `MSession` (sequences of setter calls), `MEnvelope` (stress envelopes, examples/criterion_check.py),
  `MCriterion` (segment handling, skier objects, minimum force, coupled criterion), `MPlot` (outline,
  colour limits, levels, profile database), `MFigure` (data shown in the figures), `MColour` (`adjust_lightness` with `colorsys`), `MTouchdown` (touchdown distances, `Inverse`).
* `SExact`: an exact eigensolver for matrices shaped like the system matrix, used as a witness that the
  eigensolver hypotheses can be met. `PLinAlg.elim_solve`: the same for the linear solver.
* `S*.v`: specifications that do not use the model's helpers.
* `P*.v`: proofs. `Prop*.v`: one theorem or more per property, with examples.

## Seeded errors

`seeded/LOG.jsonl` has one line for each edit of a model definition in a scratch copy. How to read it:

* `claim` names the claims expected to fail, as written before the run, and says what the edit does.
  Where no claim is named, any failing theorem counted.
* `proof_failed_at` lists the proofs that no longer went through. A proof that needs more than 120 s for one
  command counts as failed.
* `theorems_failed` lists the theorems of the expected claims that are, or depend on, such a proof. They
  were found from the dependency graph. The build was stopped once every expected claim was hit, so the
  lists need not be complete.
* `expected_claims_without_failing_theorem` lists expected claims none of whose theorems failed. The note says
  whether the expectation was wrong or the theorem was too weak.
* `outcome` is "rejected in part" if only some expected claims, or only lemmas and examples, failed.

## Findings

Places where the faithful model does not have the property one would expect.

* **C07** slope-parallel centroid of the vertical-face wedge uses `tan(phi/2)` for `tan(phi)/2`.
* **C15** unsupported particular solution violates moment balance when `B11*pt <> 0`.
* **C19** `dz_dx` always uses the supported system matrix, also on unsupported segments.
* **C26** `substitute_stiffness` is not exception safe.
* **C27** the translational substitute stiffness contains the settlement `q/kn`, so a heavier
  slab gets a softer "spring".
* **C33** `calc_segments` computes the crack height before it stores the inclination: the first
  call with a new `phi` uses the old one.
* **C35** touchdown analysis raises when the settlement exceeds the crack height.
* **C36** vertical-face PSTs in contact stages get the crack height (a length) as shear force.
* **C37/C70** `Inverse` lacks `SlabContactMixin`; `calc_segments`, `external_potential` and the
  contact branches of `bc` and `assemble_and_solve` raise AttributeError. Its `mode` stays
  False, so `bc` of an unsupported PST end raises UnboundLocalError.
* **C45** the mode II integrand of `ginc` has the opposite sign of `2 GII` for identical states
  (`tau` times `-gamma`); mode I agrees.
* **C48** `Txz` at the bottom of unsupported segments contains the weak-layer shear stress (follows
  from C19).
* **C49** `Sxx` on a slope contains a weight term proportional to the local mesh spacing.
* **C51** the normalised weak-layer principal stress divides by a strength in kPa whatever the unit
  of the stress: a factor 1000 between kPa and MPa.
* **C54** `internal_potential` adds `M psi^2 / 2` at the spring end of a PST, which has no sign (the
  energy of a rotational spring is `|M psi| / 2`). `C54_solved_refuted` solves a "-pst" system in
  stage C whose stored energy is negative: the end term is cubic in the load, the rest quadratic.
* **C71** `internal_potential` scales the weak layer with the whole length instead of the supported
  one, leaves out the `t/2 w'` part of the shear deformation and neglects the cross term of coupled
  laminates.
* **C57** a coordinate before the model (negative) is given to the first segment instead of being
  reported as outside.
* **C58** a midpoint inside the first segment makes `split_segments_at_midpoint` lengthen the model by
  half its length.
* **C59** the Adam envelope is inconsistent for scaling factors outside [0.55, 1]; the Mede envelope
  reports failure at zero stress. On the plotted curve of Mede the criterion is 1 on the line but the square
  of the largest shear strength on the cap.
* **C60** the plotted toughness envelope uses the exponent 1/0.45, the criterion 2.2; on the plotted
  envelope the criterion is below 1 except at the end points.
* **C62** a completely cracked model is reported as a success at a weight that was never evaluated; the
  damped variant can leave the bracket.
* **C63** the fallbacks drop the density (250 is used) and the weak-layer thickness (30 is used); the
  damped variant uses a model of 100 instead of 1000 slab thicknesses.
* **C72** where the stress criterion is exceeded at an end of the model, the end part is never marked as
  cracked, and with both ends exceeded the part in between is marked instead. Between two samples of which
  one is the middle of the model a crossing may be missed: the sample takes the stresses of the right half, the
  root function those of the left half (`C72_crossings` leaves these pairs out). A sample exactly on the limit
  is part of two crossings.
* **C73** with a bounded response of the model the search never ends; its end is proved when all large
  weights meet the criterion.
* **C74** there are admissible, stable objects whose system matrix has a double eigenvalue; the solution
  formulas then have no six independent solutions. `C74_exists` gives the exact condition;
  every slab has one to three such weak-layer moduli (C106).
* **C108** the root searches start at a thousandth of the column: columns longer than about a thousand
  contact lengths are rejected with ValueError whatever the crack, and `touchdown_distance` (100 m) raises
  for every slab that touches down within 100 mm.
* **C109** the contact length is sought below 999 thousandths of the crack. Cracks slightly longer than full contact
  have a longer one, so they raise ValueError: for every exact root finder there is a whole interval of crack
  lengths behind the second threshold that cannot be analysed (witness: five metres of the default slab).
* **C77** `tight_central_distribution` gives 2*floor(samples/2)-1 values, not the `samples` of its
  docstring.
* **C78** one NaN in the weak layer drops the whole weak layer from the colour limit.
* **C69** in stage C the end load uses the stored inclination, not the argument.
* **C79** `set_touchdown_attributes` calls `set_tc` before `set_phi`, so the first- and full-contact
  lengths of `touchdown_distance` use the crack height of level terrain on every slope; only the steady
  state, from the second call, uses that of the inclination.
* **C80** `Inverse()` raises IndexError with its default arguments.
* **C81** `Szz` is 0 at the slab surface whatever the surface load, and at the slab bottom it is the
  weak-layer normal stress plus the surface load less `t/2` times the derivative of the weak-layer shear
  stress (plus a discretisation error of order `dz^2`, bounded in `C81_faces`).
* **C83** the moments of a solved slab do not balance when an asymmetric slab (`B11 <> 0`) carries a
  tangential surface load over an unsupported length; the remainder is `B11/A11 pt` times that length
  (the same defect of the free particular solution as C15, seen globally).
* **C84** `deformed` cuts off uplifted parts of the slab. For the skier systems it centres slab and weak
  layer by their own largest coordinate: a slab with an unsupported right end shows the weak layer
  shifted, one with an unsupported left end shows none (`Xwl[0]` is NaN).
* **C85** `deformed` with `field='principal'` keeps values at unsupported points of the weak layer; they
  set the colour scale.
* **C86** `slab_profile` cuts off densities above 500.
* **C87** curve labels are placed at index `0.95 n - 10 i`; at 0 the label is between the last and the
  first point. `err_modes` needs 16 and `err_comp` 11 crack lengths (IndexError). `plot_fea_disp` and
  `plot_fea_stress` always raise TypeError (`ki` is not given, `vlines` is on).
* **C88** `find_min_crack_length_self_propagation` raises ValueError when all or no cracks of its search
  interval propagate; its documentation promises None. `C88_refuted` gives 90 mm of ice and an interval of
  short cracks, none of which propagates. If the weak layer is above the criterion already under the resting
  slab there is no shortest crack to be found (`C124_none`).
* **C92** the incremental rate of a vanishing crack tends to GI in mode I but to *minus* GII in mode II
  (the sign of C45): its total is not the limit of the differential rate.
* **C93** `external_potential` lets the shear traction of the surface load work at the centre of gravity of
  the slab, not at its surface. It also uses the stored inclination, whatever `phi` it is given.
* **C95** the stored energy is not half the work of the loads. The weak layer's shear stress acts at `t/2`
  below the slab in the moment balance, but its slip does not count the slab's shear strain there; the
  exact remainder is the integral of `t/2 tau (w' + psi)`. A uniform slab on a slope already shows it.
* **C96** the total incremental rate of `ginc` is negative for every short enough crack without skier once
  `tan(phi)^2 > kt/kn = (1 - nu)/2` (31.5 degrees for nu = 1/4). The repository's test checks one crack on flat
  ground, and there the third entry, which is mode II and not the total.
* **C97** the incremental rate is released energy only as mode I *minus* mode II, and only up to the terms
  of C15 and C95; the statement has them all exactly. It is the released energy as claimed in saw tests
  without contact on level ground. On a vertical face, with a surface load that balances the moment of
  the weight, the rate is exactly minus the work gained by the loads (`C97_refuted`).
* **C98** the stress plot raises IndexError if one to ten raster points lie on the foundation: the label
  position leaves the array.
* **C100** `assemble_and_solve` changes the lists of the caller when there is a single segment: a dummy
  segment is appended in place. Copies made before the call do not fit the constants (rasterising raises
  IndexError). With lengths as a list and foundations as an array the call raises AttributeError after
  the lengths have been extended, and every further call with them raises ValueError.
* **C101** the translational substitute spring is not a physical quantity: `1/kN` is the deflection under a
  force of one (new) unit plus the settlement under the slab load, so changing the unit of force changes
  the stiffness beyond a factor, and with it the touchdown lengths. Consequence of C27. Everything else of
  the mechanical model is homogeneous.
* **C119** the tabulated modulus of the profile "comp" is Scapozza's, not that of the default density law:
  `set_beam_properties("comp")` gives a slab less than a third as stiff as `[[240, 200]]`. All other
  profiles agree with the default law within one percent. The arguments `C0`, `C1` are ignored for names.
* **C122** `find_minimum_force` silently returns 0 kg for very strong weak layers although a critical weight
  exists: the undampened iterates alternate around it, and the dampened ones grow at most by a factor of two
  per step, so that 50 steps do not reach it. For critical weights between 2^-16 and 2^16 kg this does not
  happen (C121).

Texts that disagree with the code, without a theorem: the class documentation gives the gravitational constant as
9180 mm/s^2 (weac/eigensystem.py:22), the code uses 9810; `set_beam_properties` documents the exponent `C1` as 4.6
(weac/eigensystem.py:207), its default is 4.4; `set_foundation_properties` documents an argument `cf`
(weac/eigensystem.py:166-168) that it does not have.

Hypothesis worth knowing: well-posedness (C67) needs `kt t^2 < 16 kA55` (`stable`). The weak
layer traction makes the beam operator non-symmetric (C11); the energy argument absorbs the
cross term in the shear stiffness and needs this bound to do so. What happens beyond it is open.

## Plan per property

* **C01 Slab centre of gravity is the mass centroid** - Layer lists as `list (R*R)`; spec: sum over layers of rho*∫z dz over the layer interval (Coquelicot RInt); induction on the list.
* **C02 Subdividing a layer changes nothing** - Same model; additivity of interval sums under splitting a layer.
* **C03 Laminate stiffnesses are the through-thickness integrals** - Fold over plies; spec as sums of RInt of E'·z^k.
* **C04 Admissible slabs have positive definite stiffness** - Quadratic form ∫E'(s+z)^2 > 0 for every s, discriminant.
* **C05 Homogeneous slab reduces to the textbook beam** - Induction; reversal lemma of ply sums.
* **C06 Vertical-face wedge: mass and normal centroid** - Wedge of width (H/2-z)·tan(phi); sums of RInt.
* **C07 Vertical-face wedge: slope-parallel centroid** - Expected refuted: code uses tan(phi/2) instead of tan(phi)/2. Prove the exact ratio and a witness.
* **C08 Load decomposition conserves magnitude and direction** - Trigonometric identities on R.
* **C09 Foundation stiffness is positive and plane-strain consistent** - Field arithmetic.
* **C10 Density parametrisations are positive, increasing and unit consistent** - Rpower monotonicity.
* **C11 System matrix and load vector encode exactly the beam equilibrium** - Field arithmetic on a six-component state, both directions.
* **C12 Supported complementary solution solves the homogeneous equation** - Coquelicot is_derive for each column; eigenpairs as hypotheses (LAPACK is an oracle).
* **C13 Supported particular solution satisfies equilibrium** - Field arithmetic.
* **C14 Free complementary solution is a complete fundamental system** - is_derive, plus solving for coefficients (explicit inverse).
* **C15 Unsupported particular solution satisfies equilibrium** - Expected refuted when B11*pt <> 0; proved otherwise (iff).
* **C16 Stability shift keeps the exponentials bounded** - exp monotonicity; sign of shift.
* **C17 Supported fundamental matrix has six columns** - Kernel of K trivial; counting lemma on conjugate-closed lists.
* **C18 Reported derivatives are the true derivatives on supported segments** - From C12, C13.
* **C19 Reported derivatives are the true derivatives on unsupported segments** - Expected refuted: dz_dx always uses the supported K.
* **C20 The assembled linear system is exactly the boundary value problem** - Block assembly over functions nat->nat->R with slice assignment as in numpy; row evaluation for all N.
* **C21 End conditions match the system type** - Consequences of C20 per system type and stage.
* **C22 Invalid segment lists are rejected, valid ones accepted** - Branch-by-branch result type.
* **C23 Global force balance** - C20 + ODE + fundamental theorem of calculus, telescoping over segments.
* **C24 Mirror symmetry of left- and right-cut PSTs** - Boundary value problem stated on fields; is_derive of reflected functions.
* **C25 Substitute stiffness restores the model** - State-passing model of the object; eigen-solver deterministic oracle.
* **C26 Substitute stiffness is exception safe** - Expected refuted: a raising solver leaves system='rot'/'trans' and scaled kn, kt.
* **C27 Substitute spring stiffness is a property of the beam, not of the load** - Rotational: proved. Translational: expected refuted (deflection includes the weight settlement).
* **C28 First-contact length: the free tip just reaches the crack height** - Independent beam spec (ODE of the cantilever with springs), iff.
* **C29 Full-contact length: the tip lies tangentially on the collapsed layer** - Independent beam spec, iff; coefficient comparison.
* **C30 Stage order: full contact only after first contact** - From C28, C29 by inequalities.
* **C31 Touchdown length bounds** - Root-finder oracle returns a value in the bracket.
* **C32 Segment lists partition the model** - Branch analysis of calc_segments.
* **C33 calc_segments is repeatable** - Expected refuted: crack height uses the inclination of the previous call.
* **C34 Touchdown analysis leaves the elastic model untouched** - Root finder as an arbitrary interactive strategy evaluating a stateful function; induction on its run.
* **C35 Touchdown analysis accepts every physical model** - Expected refuted: when the settlement exceeds the crack height the bracket has no sign change.
* **C36 Touchdown flag does not corrupt vertical-face systems** - Expected refuted: stage B/C right-hand side overwrites the vertical-face forces.
* **C37 Every public model class supports segment generation** - Expected refuted: Inverse lacks SlabContactMixin; method-resolution model of the class table.
* **C38 Raster grid covers the model** - List induction; ceil on R.
* **C39 Foundation mask marks exactly the supported points** - List induction.
* **C40 Raster columns are the segment solutions** - List induction.
* **C41 Differential energy release rate: non-negative and additive** - Squares.
* **C42 Differential energy release rate: crack-tip weights** - Parity/structure argument on boolean lists.
* **C43 Crack-tip energy release rate is well defined** - From C20 transmission conditions.
* **C44 Incremental energy release rate: mode I is the crack-opening work** - quad as integral oracle.
* **C45 Incremental and differential energy release rates agree in the limit** - Mode I proved; mode II expected refuted (sign).
* **C46 Through-thickness mesh** - List induction; ceil.
* **C47 Slab shear stress is in equilibrium with the weak layer** - Trapezoid rule exact on affine pieces; sums of plies; C11.
* **C48 Unsupported slab bottom is traction free** - Expected refuted.
* **C49 Axial slab stress does not depend on the mesh** - Expected refuted (weight term proportional to dz); holds on flat terrain.
* **C50 Principal stresses are the eigenvalues of the stress tensor** - sqrt algebra.
* **C51 Normalised stresses do not depend on the display unit** - Slab: proved. Weak layer: expected refuted.
* **C52 Weak-layer stress output pairs coordinates and stresses** - NaN as None; list induction.
* **C53 Unit conversion of displacements, rotations and stresses** - Unit tables as partial functions on strings.
* **C54 Stored energy is non-negative** - Expected refuted (M psi^2 term has no sign).
* **C55 Model state depends only on the last properties set** - Trace induction over setter operations.
* **C56 Superposition** - Linearity of lists/dot products.
* **C57 Segment lookup** - List induction.
* **C58 Splitting at the midpoint keeps the model** - Proved when the midpoint is beyond the first segment; otherwise expected refuted.
* **C59 Stress envelope classifies failure** - Per envelope: Adam and Schoettner proved in their consistent range; Mede expected refuted.
* **C60 Toughness criterion matches the plotted toughness envelope** - Expected refuted (exponents 2.2 and 1/0.45 differ); monotonicity proved.
* **C61 Minimum force search** - Response function as oracle; loop with explicit fuel 50, recursion over dampening 1..5.
* **C62 Coupled criterion result** - Response functions as oracles; loop invariant.
* **C63 Fallback keeps the caller's parameters** - Expected refuted: density / t not forwarded; call modelled with the argument records and Python defaults.
* **C64 Skier placement** - List induction; IndexError branch explicit.
* **C65 Plot outline is the closed perimeter** - List/matrix indices.
* **C66 Dummy profiles** - Finite table; ascii lower-casing.
* **C67 The assembled problem is well posed** - Energy argument for uniqueness (work of the homogeneous fields), independence of eigenvectors, then kernel-trivial implies solvable (own linear algebra).
* **C68-C71** - see the theorems in `PropContact`, `PropBvp`, `PropClass` and `PropPotential`.
* **C72 Crossings of the stress criterion become an anticrack** - Ordered root lists; sign changes; proved if the ends of the model are not exceeded, refuted otherwise. `C72_crossings` ties the list of roots to the sampled stresses, `C72_samples` the samples to the solution, `C72_no_crossing` covers models without crossings.
* **C73 The coupled criterion ends** - Expected refuted for the damped variant.
* **C74 Existence of the eigenvalue decomposition** - Characteristic polynomial is a cubic in the square of the eigenvalue; explicit roots and eigenvectors; converse by counting.
* **C79 Touchdown distances** - State of the object after each of the two `calc_segments` calls; expected refuted on slopes.
* **C80 Inverse model** - State equality; the recalculation depends only on the inputs of the object.
* **C81 Transverse normal stress** - Double cumulative trapezoid of layerwise affine data in closed form; third-derivative balance equations.
* **C82 General solution on the weak layer** - Independent columns span; Gronwall for uniqueness.
* **C83 Moment balance** - Integrate d/dx(M - xV) per segment and telescope.
* **C75-C78 Plot helpers** - Colour normalisation, digits, levels, colour limit; list and real arithmetic.
* **C84-C85 Deformed slab** - Matrices by cells; column-wise field lemmas; C78 for the scale.
* **C86 Snow profile** - Corners of a staircase; one layer at a time.
* **C87 Annotations** - Prefix sums of segment lengths; integer index arithmetic with wrap-around.
* **C88 Self-propagation** - End-to-end solution of the created model; mirror image of the slab for the slope.
* **C89 Failure curves** - Concave caps joined to straight lines; continuity by pieces.
* **C90 Cutting segments** - Shifted fields solve the cut problem; uniqueness of fields.
* **C91 Continuous dependence** - The regular limit system bounds the constants of nearby systems; compactness for uniformity.
* **C92 Vanishing cracks** - Zero-length segments in the limit problem; integrands uniformly near their limit.
* **C93 Potentials** - Means over raster columns; expected refuted for the surface load.
* **C94 Coupled criterion by released energy** - Invert the creation of both skier objects; C44 for the rates; outcome by outcome.
* **C95 Energy and work** - Derivative of `N u + M psi + V w`; integrate per segment and telescope.
* **C96 Sign of the incremental rate** - Limit of C92 on the uniform solution.
* **C97 Released energy** - Betti's reciprocity of the two solutions, with the non-symmetric rest explicit; with free ends and a uniform uncracked
  solution the rest vanishes by force and moment balance of the cracked one, and an energy inequality gives the sign.
* **C98 Line plots** - Curves handed to matplotlib against the raster theorems C38 to C40; for the rate and criterion plots against the values of their arguments.
* **C99 Adjusted colours** - Closed form of both conversions sector by sector.
* **C100 Arguments of the solver** - Sequences as mutable objects (`MArgs.v`), call by call.
* **C101 Change of units** - Each function scaled on its own; solutions through uniqueness (C67).
* **C102 Heavier skiers** - Energy argument of C67 with the difference of two solutions; proportional by superposition (C56).
* **C103 Rates against weight** - States on a line of weights combine linearly; powers above one are convex (Bernoulli).
* **C104 Soft weak layers** - The characteristic cubic is strictly increasing if chi2^2 < 3 chi1; the neutral axis lies inside the slab; profiles by computation.
* **C105 Complete analyses** - Well-posedness (C67) with the lists of each system; acceptance theorems of raster and rates.
* **C106 Exceptional weak layers** - The discriminant of the eigenvalue cubic is E^3 times a cubic in E with positive leading and negative constant coefficient.
* **C107 Bounds of the springs** - Energy of the beam against trial fields: a rigid slab from one side, a stress field spread over s from the other.
* **C108 Window of the touchdown analysis** - Signs of the three polynomials at both ends of their brackets from C107; bisection as an example of a root finder.
* **C109 Gap behind full contact** - The springs are continuous in the length (the solution of the linear system is); the thresholds exist by the intermediate value theorem; at full contact the polynomial of the contact length is negative at both ends of its bracket, and stays so nearby.
* **C110 Computed lengths** - Intermediate value theorem on the continuous polynomials between the bracketing evaluations; example with an exact root finder in stage C.
* **C111 Fading influence** - Weighted energy: the work of the section forces minus a small multiple of rotation times deflection grows at least as fast as a multiple of the square of the state (`PDecay`), also when weighted with a bell of exponential flanks around the point of interest (`PDecay2`); the loads bound the growth, the growth bounds the state.
* **C112 Outer segments** - The difference of the two solutions obeys the homogeneous equations on the shorter model, and at its ends both solutions are small by C111.
* **C113 Inexact numerics** - Columns built from approximate eigenpairs solve the differential equations up to a residual (the shift of C16 keeps the exponentials below one); Gronwall compares them with exact columns that start from the same state, the bounded inverse of the exact linear system (C67) turns the residual of the conditions into a distance of the constants.
* **C114 Inexact numerics, energy** - Energy release rates are quadratic forms of states (C42) or integrals of products of linear forms of states (C44); products of close factors are close because the true states are bounded on a segment.
* **C118 Backward stable numerics** - Entries of the assembled matrix are bounded by the size of the eigenvectors (columns never grow, because of the shift), entries of the right-hand side by the loads. States near the true ones have bounded constants: at the left end of a segment the columns are the eigenvectors, shortened by at most exp (lam l), and lam is bounded because K v = lam v with v of bounded condition. So S <= T (Z + Kb (eps (alpha S + beta) + rho S)), and for small eps + rho the S on the right can be absorbed.
* **C119 Predefined profiles** - Rational bounds on x^(n/d) follow from integer powers; the three tabulated layers and the one for comparison are checked with them. The laminate sums are monotone in each modulus, so one percent per layer is one percent of every stiffness.
* **C120 Critical weight** - The solution is affine in the weight because the boundary value problem is linear and uniquely solvable. Squares of affine functions are convex, and so is their maximum; below 1 at weight 0 it crosses 1 at most once, and the slope of the chord bounds the error of the search. Existence: the difference of two solutions is a state without distributed loads, the work of the section forces increases along each segment and vanishes at both ends, so the point load does positive work; adding the mirrored state removes the tangential part, which leaves a positive deflection under the load on every slope.
* **C121 Search converges** - In units of the critical weight the root of the largest envelope value is a maximum of lengths of affine vectors, so it lies between two straight lines through (1, 1). One dampened step then grows by at least 3/2 below 1/8 and by 5/4 below 1/2, never exceeds 3/2, and contracts towards 1 by 3/4 and later 5/8; 46 steps suffice from any start within a factor of 65536, and the code has 50. If the undampened loop uses up its budget, the dampened one starts again at one kilogram. The stress bound compares the work along the slab with that of a tent-shaped deflection; the difference of both is the integral of squares.
* **C122 Search gives up** - With the strength as a free factor K the largest envelope value is q(w)/K with q between two quadratics. For K large the undampened steps jump between weights whose values stay away from 1, and the dampened ones stay below 2^50
* **C123 Reported crack** - An invariant of the loop says that the layout and its length are the first guess or the result of the last search for the present weight; the cracked model of a loop that ends is built from this layout and weight. What the search returns is C72
* **C124 Crack length** - Continuous dependence on the segment lengths (C91), also at a closed crack, where the transitions without load join the two halves of the undisturbed slab. The shortest crack is a supremum of lengths below which nothing propagates.
* **C125 Short cracks** - Sum of the deviations from rest and their mirror images: the tangential loads cancel, half a slab remains with a symmetric crack under constant normal load. If the tips did not sink, the work of the tip forces would be at most of order h times the squared tip state, while the supported part needs at least a fixed fraction of it.
* **C126 Saw tests** - Statics of the hanging part gives tip forces quadratic in its length; the difference between a state and the mixture of three others with Lagrange weights solves the unloaded problem with free ends and is zero. The rates are squares of components, hence of degree at most four. States of cuts at the left end follow by mirroring; the rates are for cuts at the right end.
* **C127 Short saw cuts** - The part of the states linear in the cut length carries only a shear force at the tip; its work equals the stored energy and is positive, so the tip gives way in the direction of the load. Level ground only.
* **C128 Level ground** - The wedge at a vertical face vanishes, both systems have ends free of forces; uniqueness.
* **C129 Mirrored rates** - The state left of a mirrored tip mirrors the state right of the tip (C24); both sides agree (C43); weights and sums reverse. For a symmetric model the rates are even in the inclination.
* **C115 Cracked slabs** - On a supported piece of unit length the work done by the section forces controls the state (a cut-off of the C111 energy and the mean value theorem). Between the outer segments states grow at most exponentially with length, so the loads there cost at most a multiple of the square root of that work; the resulting quadratic inequality bounds it.
* **C116 Outer segments with cracks** - The difference of both solutions has no loads and, by C115, exponentially small displacements at the ends of the shorter model; the same inequality bounds it everywhere.
* **C117 Outer segments and rates** - Rates are sums (C42) or integrals (C44) of products of two weak layer displacements; each product changes by at most the bound of C115 times the change bounded in C116.
