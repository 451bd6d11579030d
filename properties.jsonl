{"id": "C01", "title": "Slab centre of gravity is the mass centroid", "statement": "For any non-empty list of (density, thickness) layers with positive values, calc_center_of_gravity returns the sum of the thicknesses and the mass centroid, i.e. the density-weighted mean of the depth coordinate measured downward from the mid-plane (integral of rho*z over integral of rho); the centroid lies strictly inside the slab and reversing the layer order flips its sign.", "quantifier": "all layer lists of any length with positive densities and thicknesses", "why_tests_cant": "the number of layers and their values are unbounded; a test only samples a few profiles", "anchors": ["weac/tools.py:calc_center_of_gravity", "weac/eigensystem.py:Eigensystem.set_beam_properties"]}
{"id": "C02", "title": "Subdividing a layer changes nothing", "statement": "Replacing one layer by two layers of the same density whose thicknesses add up to the original leaves the slab height, the centre of gravity, the extensional, coupling, bending and shear stiffness, and the weight load unchanged.", "quantifier": "all profiles, all positions of the divided layer, all positive split thicknesses", "why_tests_cant": "an equivalence between two infinite families of inputs", "anchors": ["weac/eigensystem.py:Eigensystem.calc_laminate_stiffness_matrix", "weac/eigensystem.py:Eigensystem.get_weight_load", "weac/tools.py:calc_center_of_gravity"]}
{"id": "C03", "title": "Laminate stiffnesses are the through-thickness integrals", "statement": "A11, B11, D11 are the zeroth, first and second depth moments of the plane-strain modulus E/(1-nu^2) over the slab, taken about the mid-plane, and kA55 is 5/6 times the integral of the shear modulus; ply coordinates start at -h/2, end at +h/2 and increase.", "quantifier": "all slabs of any number of layers", "why_tests_cant": "integral identity over all profiles", "anchors": ["weac/eigensystem.py:Eigensystem.get_ply_coordinates", "weac/eigensystem.py:Eigensystem.calc_laminate_stiffness_matrix"]}
{"id": "C04", "title": "Admissible slabs have positive definite stiffness", "statement": "For every slab whose layers have positive thickness and modulus and Poisson ratio in (-1, 1), A11 > 0, D11 > 0, kA55 > 0 and A11*D11 > B11^2 (K0 < 0), so none of the divisions in the system matrix, the load vector and the free-segment solutions is a division by zero.", "quantifier": "all admissible slabs of any number of layers", "why_tests_cant": "strict inequality (Cauchy-Schwarz) over infinitely many profiles", "anchors": ["weac/eigensystem.py:Eigensystem.calc_laminate_stiffness_matrix", "weac/eigensystem.py:Eigensystem.calc_system_matrix"]}
{"id": "C05", "title": "Homogeneous slab reduces to the textbook beam", "statement": "If all layers share density and modulus then B11 = 0, zs = 0, A11 = E h/(1-nu^2), D11 = E h^3/(12(1-nu^2)), kA55 = 5/6 G h; more generally reversing the layer order negates B11 and keeps A11, D11, kA55.", "quantifier": "all layer thickness lists", "why_tests_cant": "all list lengths", "anchors": ["weac/eigensystem.py:Eigensystem.calc_laminate_stiffness_matrix"]}
{"id": "C06", "title": "Vertical-face wedge: mass and normal centroid", "statement": "For a vertical-face PST on a slope, the returned mass equals the integral of density over the triangular wedge cut by the vertical face and the returned zs is the slope-normal mass centroid of that wedge; on flat terrain all three outputs are zero.", "quantifier": "all profiles and all slope angles with cos(phi) != 0", "why_tests_cant": "integral identity over all profiles and angles", "anchors": ["weac/tools.py:calc_vertical_bc_center_of_gravity"]}
{"id": "C07", "title": "Vertical-face wedge: slope-parallel centroid", "statement": "The returned xs is the slope-parallel mass centroid of the wedge.", "quantifier": "all profiles and slope angles", "why_tests_cant": "needs an exact identity for every angle; the discrepancy is small at small angles", "anchors": ["weac/tools.py:calc_vertical_bc_center_of_gravity", "weac/mixins.py:SolutionMixin.assemble_and_solve"]}
{"id": "C08", "title": "Load decomposition conserves magnitude and direction", "statement": "Weight, surface and skier loads are split so that the normal and tangential parts have the original magnitude (qn^2+qt^2=q^2), flat terrain has no tangential part, opposite slope angles give opposite tangential and equal normal parts, and the weight load is g times the areal mass.", "quantifier": "all slabs, slope angles, surface loads and skier masses", "why_tests_cant": "trigonometric identity for every angle", "anchors": ["weac/eigensystem.py:Eigensystem.get_weight_load", "weac/eigensystem.py:Eigensystem.get_surface_load", "weac/eigensystem.py:Eigensystem.get_skier_load", "weac/mixins.py:SlabContactMixin.calc_qn"]}
{"id": "C09", "title": "Foundation stiffness is positive and plane-strain consistent", "statement": "For positive modulus and thickness and Poisson ratio in (-1,1), kn and kt are positive, kn/kt = 2/(1-nu), both halve when the thickness doubles.", "quantifier": "all weak-layer properties", "why_tests_cant": "all reals", "anchors": ["weac/eigensystem.py:Eigensystem.calc_foundation_stiffness"]}
{"id": "C10", "title": "Density parametrisations are positive, increasing and unit consistent", "statement": "scapozza, gerling, bergfeld and tensile_strength_slab give positive strictly increasing values for positive densities, and the strength in kPa is 1000 times the one in MPa; each is a power law through its documented reference value.", "quantifier": "all positive densities and positive constants", "why_tests_cant": "monotonicity over a continuum", "anchors": ["weac/tools.py:scapozza", "weac/tools.py:gerling", "weac/tools.py:bergfeld", "weac/tools.py:tensile_strength_slab"]}
{"id": "C11", "title": "System matrix and load vector encode exactly the beam equilibrium", "statement": "A state z(x)=(u,u',w,w',psi,psi') satisfies z'=Kz+q if and only if it is kinematically consistent and the section forces satisfy N' = tau - qt - pt, V' = -sigma - qn - pn and M' = V + (h+t)/2 tau - zs qt + h/2 pt, with sigma and tau the weak-layer stresses the library reports.", "quantifier": "all stiffness parameters with A11>0, kA55>0, K0<0, all loads, all states", "why_tests_cant": "equivalence of two linear systems for all parameters", "anchors": ["weac/eigensystem.py:Eigensystem.calc_system_matrix", "weac/eigensystem.py:Eigensystem.get_load_vector", "weac/mixins.py:FieldQuantitiesMixin.N", "weac/mixins.py:FieldQuantitiesMixin.M", "weac/mixins.py:FieldQuantitiesMixin.V", "weac/mixins.py:FieldQuantitiesMixin.sig", "weac/mixins.py:FieldQuantitiesMixin.tau"]}
{"id": "C12", "title": "Supported complementary solution solves the homogeneous equation", "statement": "Every column of the supported complementary solution matrix is, as a function of x, a solution of z' = K z for every segment length, whenever the eigen-solver returned true eigenpairs of K.", "quantifier": "all x, all segment lengths, all real and complex eigenpairs", "why_tests_cant": "differential equation at every point", "anchors": ["weac/eigensystem.py:Eigensystem.zh", "weac/eigensystem.py:Eigensystem.calc_eigensystem"]}
{"id": "C13", "title": "Supported particular solution satisfies equilibrium", "statement": "The supported particular integral is a constant state z with K z + q = 0, for weight and surface loads at any inclination.", "quantifier": "all material parameters, loads and inclinations", "why_tests_cant": "algebraic identity over all parameters", "anchors": ["weac/eigensystem.py:Eigensystem.zp", "weac/eigensystem.py:Eigensystem.get_load_vector"]}
{"id": "C14", "title": "Free complementary solution is a complete fundamental system", "statement": "Each column of the unsupported complementary matrix solves the foundation-free equation z'=K(kn=kt=0) z, and the six columns are linearly independent at every x, so every solution of the foundation-free equation is a combination of them.", "quantifier": "all x and laminate stiffnesses", "why_tests_cant": "differential equation and independence at every point", "anchors": ["weac/eigensystem.py:Eigensystem.zh"]}
{"id": "C15", "title": "Unsupported particular solution satisfies equilibrium", "statement": "The unsupported particular integral satisfies the foundation-free equilibrium equations with the same weight and surface loads as the supported one.", "quantifier": "all material parameters, loads and inclinations", "why_tests_cant": "identity over all parameters; failing cases need both a surface load and a layered slab", "anchors": ["weac/eigensystem.py:Eigensystem.zp"]}
{"id": "C16", "title": "Stability shift keeps the exponentials bounded", "statement": "For 0 <= x <= l every exponential factor in the supported complementary matrix lies in (0,1], for any eigenvalues, so evaluating a segment of any length cannot overflow; and the shift only rescales columns, so the solution space is unchanged.", "quantifier": "all eigenvalues, all segment lengths and positions in the segment", "why_tests_cant": "unbounded lengths", "anchors": ["weac/eigensystem.py:Eigensystem.calc_eigensystem", "weac/eigensystem.py:Eigensystem.zh"]}
{"id": "C17", "title": "Supported fundamental matrix has six columns", "statement": "For positive foundation stiffness K has no zero eigenvalue, and if the solver's eigenvalues come in conjugate pairs then the real/complex classification keeps exactly six real basis functions.", "quantifier": "all admissible parameters and all eigenvalue lists closed under conjugation", "why_tests_cant": "depends on the spectrum for every parameter choice", "anchors": ["weac/eigensystem.py:Eigensystem.calc_eigensystem", "weac/eigensystem.py:Eigensystem.zh"]}
{"id": "C18", "title": "Reported derivatives are the true derivatives on supported segments", "statement": "On a supported segment the values returned by dz_dx and dz_dxdx at the solution are the first and second x-derivatives of the solution.", "quantifier": "all constants, positions, lengths and inclinations", "why_tests_cant": "derivative at every point", "anchors": ["weac/mixins.py:FieldQuantitiesMixin.dz_dx", "weac/mixins.py:FieldQuantitiesMixin.dz_dxdx", "weac/eigensystem.py:Eigensystem.z"]}
{"id": "C19", "title": "Reported derivatives are the true derivatives on unsupported segments", "statement": "On an unsupported segment the values returned by dz_dx at the solution are the x-derivative of the solution.", "quantifier": "all constants, positions and inclinations", "why_tests_cant": "derivative at every point", "anchors": ["weac/mixins.py:FieldQuantitiesMixin.dz_dx", "weac/mixins.py:AnalysisMixin.Txz", "weac/mixins.py:AnalysisMixin.Szz"]}
{"id": "C20", "title": "The assembled linear system is exactly the boundary value problem", "statement": "For any number N >= 2 of segments and any supports, loads and lengths, a constant vector solves the assembled 6N x 6N system iff the piecewise solution satisfies the end conditions of the system type and, at every inner transition, continuity of u, w, psi and the jumps N: Ft, M: -Ft h/2, V: Fn of the skier load at that transition.", "quantifier": "all N, lengths, supports, skier masses, inclinations, constants", "why_tests_cant": "unbounded number of segments; index arithmetic", "anchors": ["weac/mixins.py:SolutionMixin.assemble_and_solve", "weac/mixins.py:SolutionMixin.eqs", "weac/mixins.py:SolutionMixin.bc"]}
{"id": "C21", "title": "End conditions match the system type", "statement": "The solved problem has stress-free ends for pst without contact, prescribed crack-height deflection (and zero moment, or rotational-spring moment plus friction-free axial load of the rested part) for contact stages B and C, and a vanishing complementary solution (u, w, psi equal to the far-field particular values) for skier systems.", "quantifier": "all states, all segment lists", "why_tests_cant": "all histories and sizes", "anchors": ["weac/mixins.py:SolutionMixin.bc", "weac/mixins.py:SolutionMixin.assemble_and_solve"]}
{"id": "C22", "title": "Invalid segment lists are rejected, valid ones accepted", "statement": "assemble_and_solve raises ValueError exactly when no segment is supported, the list lengths disagree, or (systems with infinite ends) an end segment is unsupported; lists produced by calc_segments for the built-in systems are never rejected.", "quantifier": "all lists of all lengths and all system strings", "why_tests_cant": "all inputs", "anchors": ["weac/mixins.py:SolutionMixin.assemble_and_solve", "weac/mixins.py:SolutionMixin.calc_segments"]}
{"id": "C23", "title": "Global force balance", "statement": "For any stress-free-ended system of any number of supported and unsupported segments with point loads, the solved field satisfies: integral of the weak-layer reaction kn*w over the supported segments equals total normal load (qn+pn)*length + sum Fn, and the integral of tau over the supported segments equals (qt+pt)*length + sum Ft.", "quantifier": "all N, lengths, supports, loads, inclinations", "why_tests_cant": "integral identity for unboundedly many segments", "anchors": ["weac/mixins.py:SolutionMixin.assemble_and_solve", "weac/eigensystem.py:Eigensystem.z", "weac/mixins.py:FieldQuantitiesMixin.sig", "weac/mixins.py:FieldQuantitiesMixin.tau"]}
{"id": "C24", "title": "Mirror symmetry of left- and right-cut PSTs", "statement": "If a field solves the right-cut PST problem at inclination phi then the mirrored field (u,w',psi and V flip sign) solves the left-cut PST problem at inclination -phi with the mirrored segment list, in every contact stage.", "quantifier": "all lengths, stages, inclinations, fields", "why_tests_cant": "equivalence of two families of problems", "anchors": ["weac/mixins.py:SolutionMixin.bc", "weac/mixins.py:SolutionMixin.assemble_and_solve", "weac/mixins.py:SolutionMixin.calc_segments"]}
{"id": "C25", "title": "Substitute stiffness restores the model", "statement": "A call of substitute_stiffness that returns leaves the object exactly as it was (system type, foundation stiffness, eigensystem and everything else).", "quantifier": "all object states, lengths, support kinds", "why_tests_cant": "all states and oracle behaviours", "anchors": ["weac/mixins.py:SlabContactMixin.substitute_stiffness"]}
{"id": "C26", "title": "Substitute stiffness is exception safe", "statement": "If substitute_stiffness raises (singular system, unknown degree of freedom) the object keeps its system type and foundation stiffness.", "quantifier": "all object states and failing calls", "why_tests_cant": "crash points inside the call", "anchors": ["weac/mixins.py:SlabContactMixin.substitute_stiffness"]}
{"id": "C27", "title": "Substitute spring stiffness is a property of the beam, not of the load", "statement": "The translational substitute spring stiffness does not depend on slab weight or surface load (a linear spring), and equals the inverse end deflection per unit end force of the load-free beam; likewise the rotational one.", "quantifier": "all slabs, surface loads, lengths", "why_tests_cant": "all loads", "anchors": ["weac/mixins.py:SlabContactMixin.substitute_stiffness", "weac/mixins.py:SolutionMixin.assemble_and_solve"]}
{"id": "C28", "title": "First-contact length: the free tip just reaches the crack height", "statement": "The function whose root calc_a1 returns vanishes at x exactly when a cantilever of length x with the two substitute springs at its root, loaded by qn, has tip deflection tc; calc_a1 therefore returns such a length inside (0, L).", "quantifier": "all positive stiffnesses, loads, lengths", "why_tests_cant": "continuum of parameters", "anchors": ["weac/mixins.py:SlabContactMixin.calc_a1"]}
{"id": "C29", "title": "Full-contact length: the tip lies tangentially on the collapsed layer", "statement": "The function whose root calc_a2 returns vanishes at x exactly when the spring-supported beam of length x with a moment-free tip held at deflection tc has zero tip slope; the polynomial of calc_lC has the same meaning with a rotational spring at the tip and reduces to that of calc_a2 for zero tip spring.", "quantifier": "all positive stiffnesses, loads, lengths", "why_tests_cant": "continuum of parameters", "anchors": ["weac/mixins.py:SlabContactMixin.calc_a2", "weac/mixins.py:SlabContactMixin.calc_lC"]}
{"id": "C30", "title": "Stage order: full contact only after first contact", "statement": "At any length where the calc_a2 condition holds, the freely hanging tip would already be below the crack height, so with increasing crack length the stages occur in the order A, B, C; for given thresholds the stage assignment is total, exclusive and monotone in crack length.", "quantifier": "all parameters", "why_tests_cant": "continuum of parameters", "anchors": ["weac/mixins.py:SlabContactMixin.calc_touchdown_mode", "weac/mixins.py:SlabContactMixin.calc_a1", "weac/mixins.py:SlabContactMixin.calc_a2"]}
{"id": "C31", "title": "Touchdown length bounds", "statement": "After calc_segments the touchdown length is the crack length in stages A and B and lies within [a/1000, 999a/1000] in stage C.", "quantifier": "all histories and inputs", "why_tests_cant": "root-finder behaviour for all inputs", "anchors": ["weac/mixins.py:SlabContactMixin.calc_touchdown_length", "weac/mixins.py:SlabContactMixin.calc_lC"]}
{"id": "C32", "title": "Segment lists partition the model", "statement": "For pst, vpst and skier systems the returned lengths add up to L (L-a+td in contact stage C), the unsupported length of the cracked configuration is a (td in stage C), the uncracked configuration is fully supported, list lengths are consistent, the skier load sits at the midpoint, lengths are non-negative for 0<=a<=L, and unknown systems raise ValueError.", "quantifier": "all inputs and all object histories", "why_tests_cant": "all states and inputs", "anchors": ["weac/mixins.py:SolutionMixin.calc_segments"]}
{"id": "C33", "title": "calc_segments is repeatable", "statement": "Calling calc_segments twice with the same arguments yields the same segment lists, stage and crack height: the outcome depends on the arguments and the material properties, not on earlier calls.", "quantifier": "all call histories", "why_tests_cant": "history dependence needs all call sequences", "anchors": ["weac/mixins.py:SlabContactMixin.set_touchdown_attributes", "weac/mixins.py:SlabContactMixin.set_tc", "weac/mixins.py:SlabContactMixin.set_phi"]}
{"id": "C34", "title": "Touchdown analysis leaves the elastic model untouched", "statement": "A successful calc_segments (touchdown on or off) does not change system type, foundation stiffness, laminate stiffness or eigensystem, however many root-finder iterations are used.", "quantifier": "all iteration strategies of the root finder, all inputs", "why_tests_cant": "unbounded number of nested state changes", "anchors": ["weac/mixins.py:SolutionMixin.calc_segments", "weac/mixins.py:SlabContactMixin.calc_touchdown_system", "weac/mixins.py:SlabContactMixin.substitute_stiffness"]}
{"id": "C35", "title": "Touchdown analysis accepts every physical model", "statement": "With touchdown enabled calc_segments returns for every admissible slab, weak layer and inclination.", "quantifier": "all admissible inputs", "why_tests_cant": "failing region is open but outside typical parameters", "anchors": ["weac/mixins.py:SlabContactMixin.calc_a1", "weac/mixins.py:SlabContactMixin.set_tc"]}
{"id": "C36", "title": "Touchdown flag does not corrupt vertical-face systems", "statement": "For vertical-face PSTs the solved end forces are the vertical-face section forces irrespective of the touchdown flag.", "quantifier": "all inputs with the flag on or off", "why_tests_cant": "combination of flags and stages", "anchors": ["weac/mixins.py:SolutionMixin.assemble_and_solve", "weac/mixins.py:SolutionMixin.calc_segments"]}
{"id": "C37", "title": "Every public model class supports segment generation", "statement": "calc_segments can be called on instances of every exported model class (Layered, Inverse).", "quantifier": "all instances and arguments", "why_tests_cant": "class-composition property", "anchors": ["weac/inverse.py:Inverse", "weac/layered.py:Layered", "weac/mixins.py:SolutionMixin.calc_segments"]}
{"id": "C38", "title": "Raster grid covers the model", "statement": "rasterize_solution returns strictly increasing coordinates from 0 to the total length, containing every segment boundary, with between num+1 and num+N+1 points, at least one point per non-empty segment; empty segments have no influence.", "quantifier": "all segment lists, all num >= 1", "why_tests_cant": "all list lengths and real lengths", "anchors": ["weac/mixins.py:AnalysisMixin.rasterize_solution"]}
{"id": "C39", "title": "Foundation mask marks exactly the supported points", "statement": "The foundation coordinate equals the grid coordinate iff the point lies in the closure of some supported segment (crack tips included) and is NaN otherwise.", "quantifier": "all segment lists and num", "why_tests_cant": "index arithmetic over all lists", "anchors": ["weac/mixins.py:AnalysisMixin.rasterize_solution"]}
{"id": "C40", "title": "Raster columns are the segment solutions", "statement": "Each raster column is the solution vector of the segment that owns the grid point, evaluated at the local coordinate; at inner boundaries the column is evaluated at the left end of the right segment.", "quantifier": "all segment lists", "why_tests_cant": "index arithmetic over all lists", "anchors": ["weac/mixins.py:AnalysisMixin.rasterize_solution", "weac/eigensystem.py:Eigensystem.z"]}
{"id": "C41", "title": "Differential energy release rate: non-negative and additive", "statement": "gdif returns [GI+GII, GI, GII] with all entries >= 0, zeros without crack tips; J/m^2 values are 1000 times kJ/m^2 values.", "quantifier": "all segment lists, constants, inclinations", "why_tests_cant": "all lists", "anchors": ["weac/mixins.py:AnalysisMixin.gdif", "weac/mixins.py:FieldQuantitiesMixin.Gi", "weac/mixins.py:FieldQuantitiesMixin.Gii"]}
{"id": "C42", "title": "Differential energy release rate: crack-tip weights", "statement": "Every crack tip contributes with weight 1 if its crack runs to an end of the model and 1/2 otherwise, for any number of cracks.", "quantifier": "all support patterns", "why_tests_cant": "unbounded patterns", "anchors": ["weac/mixins.py:AnalysisMixin.gdif"]}
{"id": "C43", "title": "Crack-tip energy release rate is well defined", "statement": "The mode I value at a crack tip is the same computed from either side; the mode II value is the same from either side when there is no normal point load at the tip.", "quantifier": "all solved systems", "why_tests_cant": "needs the solved boundary value problem for all inputs", "anchors": ["weac/mixins.py:AnalysisMixin.gdif", "weac/mixins.py:SolutionMixin.assemble_and_solve"]}
{"id": "C44", "title": "Incremental energy release rate: mode I is the crack-opening work", "statement": "ginc's mode I entry is 1/(2 da) times the integral over the new crack of kn w0 w1, and total = mode I + mode II; without new crack all entries are zero.", "quantifier": "all segment lists and constants", "why_tests_cant": "integral identity", "anchors": ["weac/mixins.py:AnalysisMixin.ginc", "weac/mixins.py:FieldQuantitiesMixin.int1"]}
{"id": "C45", "title": "Incremental and differential energy release rates agree in the limit", "statement": "With identical uncracked and cracked states the incremental integrands are twice the differential energy release rates in both modes (so both modes are non-negative).", "quantifier": "all states", "why_tests_cant": "sign identity for all states", "anchors": ["weac/mixins.py:FieldQuantitiesMixin.int1", "weac/mixins.py:FieldQuantitiesMixin.int2", "weac/mixins.py:FieldQuantitiesMixin.tau", "weac/mixins.py:FieldQuantitiesMixin.gamma"]}
{"id": "C46", "title": "Through-thickness mesh", "statement": "get_zmesh spans [-h/2, h/2], is non-decreasing, contains top and bottom of each layer, has spacing at most dz and carries the layer's modulus, Poisson ratio and density at each point.", "quantifier": "all slabs and dz>0", "why_tests_cant": "all layer lists", "anchors": ["weac/mixins.py:AnalysisMixin.get_zmesh"]}
{"id": "C47", "title": "Slab shear stress is in equilibrium with the weak layer", "statement": "On supported segments the slab shear stress is zero at the top surface and its value at the slab bottom equals the weak-layer shear stress (without surface load; in general minus the tangential surface load), for every mesh size.", "quantifier": "all slabs, states, inclinations and mesh sizes", "why_tests_cant": "exact quadrature identity for all meshes", "anchors": ["weac/mixins.py:AnalysisMixin.Txz", "weac/mixins.py:FieldQuantitiesMixin.du0_dxdx"]}
{"id": "C48", "title": "Unsupported slab bottom is traction free", "statement": "On unsupported segments the slab shear stress at the slab bottom is zero.", "quantifier": "all unsupported solutions", "why_tests_cant": "all states", "anchors": ["weac/mixins.py:AnalysisMixin.Txz", "weac/mixins.py:FieldQuantitiesMixin.dz_dx"]}
{"id": "C49", "title": "Axial slab stress does not depend on the mesh", "statement": "The axial stress at a given depth is independent of the mesh size dz.", "quantifier": "all slabs, states and mesh sizes", "why_tests_cant": "pairs of meshes", "anchors": ["weac/mixins.py:AnalysisMixin.Sxx"]}
{"id": "C50", "title": "Principal stresses are the eigenvalues of the stress tensor", "statement": "Maximum and minimum principal stresses are the two roots of the characteristic equation of the reported stress components, max >= min, their sum and product are the trace and determinant; weak-layer principal stresses satisfy min <= 0 <= max; invalid requests raise ValueError.", "quantifier": "all states and meshes", "why_tests_cant": "identity over all reals", "anchors": ["weac/mixins.py:AnalysisMixin.principal_stress_slab", "weac/mixins.py:AnalysisMixin.principal_stress_weaklayer"]}
{"id": "C51", "title": "Normalised stresses do not depend on the display unit", "statement": "Normalised principal stresses are the same whether kPa or MPa is requested.", "quantifier": "all states", "why_tests_cant": "pairs of calls", "anchors": ["weac/mixins.py:AnalysisMixin.principal_stress_slab", "weac/mixins.py:AnalysisMixin.principal_stress_weaklayer"]}
{"id": "C52", "title": "Weak-layer stress output pairs coordinates and stresses", "statement": "get_weaklayer_* report coordinates in cm, mark exactly the unsupported points NaN, and removing NaNs yields precisely the supported coordinate-stress pairs in order.", "quantifier": "all rasters", "why_tests_cant": "all list lengths", "anchors": ["weac/mixins.py:OutputMixin.get_weaklayer_shearstress", "weac/mixins.py:OutputMixin.get_weaklayer_normalstress"]}
{"id": "C53", "title": "Unit conversion of displacements, rotations and stresses", "statement": "Values in different units differ exactly by the unit factors, top/bottom displacements differ by h*psi, and unknown units are rejected.", "quantifier": "all states and unit strings", "why_tests_cant": "all inputs", "anchors": ["weac/mixins.py:FieldQuantitiesMixin.w", "weac/mixins.py:FieldQuantitiesMixin.u", "weac/mixins.py:FieldQuantitiesMixin.psi", "weac/mixins.py:OutputMixin.get_slab_displacement"]}
{"id": "C54", "title": "Stored energy is non-negative", "statement": "internal_potential is never negative.", "quantifier": "all solved systems", "why_tests_cant": "sign for all inputs", "anchors": ["weac/mixins.py:OutputMixin.internal_potential"]}
{"id": "C55", "title": "Model state depends only on the last properties set", "statement": "After any sequence of property setters and recalculations ending in a recalculation, stiffnesses and eigensystem equal those of a fresh model with the same final properties; without recalculation they keep their previous values.", "quantifier": "all operation sequences", "why_tests_cant": "unbounded histories", "anchors": ["weac/eigensystem.py:Eigensystem.set_foundation_properties", "weac/eigensystem.py:Eigensystem.set_beam_properties", "weac/eigensystem.py:Eigensystem.set_surface_load", "weac/eigensystem.py:Eigensystem.calc_fundamental_system"]}
{"id": "C56", "title": "Superposition", "statement": "The solution field is affine in the constants and loads: particular solutions add up over weight and surface load, and scaling gravity loads and skier loads together scales the solution of the boundary value problem.", "quantifier": "all loads, constants", "why_tests_cant": "linearity over all inputs", "anchors": ["weac/eigensystem.py:Eigensystem.z", "weac/eigensystem.py:Eigensystem.zp", "weac/mixins.py:SolutionMixin.assemble_and_solve"]}
{"id": "C57", "title": "Segment lookup", "statement": "find_segment_index returns the index of the first segment whose end is at or beyond the coordinate and raises/returns none outside the model.", "quantifier": "all lists and coordinates", "why_tests_cant": "all list lengths", "anchors": ["examples/criterion_check.py:find_segment_index"]}
{"id": "C58", "title": "Splitting at the midpoint keeps the model", "statement": "split_segments_at_midpoint keeps the total length and the support of every point of the model.", "quantifier": "all segment lists", "why_tests_cant": "all list lengths", "anchors": ["examples/criterion_check.py:split_segments_at_midpoint"]}
{"id": "C59", "title": "Stress envelope classifies failure", "statement": "stress_envelope is below 1 for zero stress, equals 1 on the corresponding plotted failure envelope and increases with shear stress. Of arrays it has one value for each sample; a missing stress gives a missing value in the quadratic envelopes and 0 in those of Mede; unknown names raise ValueError.", "quantifier": "all stresses and envelope parameters", "why_tests_cant": "continuum", "anchors": ["examples/criterion_check.py:stress_envelope", "examples/criterion_check.py:failure_envelope_mede", "examples/criterion_check.py:failure_envelope_adam_unpublished", "examples/criterion_check.py:failure_envelope_schottner", "examples/criterion_check.py:failure_envelope_chandel"]}
{"id": "C60", "title": "Toughness criterion matches the plotted toughness envelope", "statement": "fracture_toughness_criterion equals 1 on every point of fracture_toughness_envelope, is non-negative, zero without driving force and increasing in both energy release rates.", "quantifier": "all energy release rates", "why_tests_cant": "continuum", "anchors": ["examples/criterion_check.py:fracture_toughness_criterion", "examples/criterion_check.py:fracture_toughness_envelope"]}
{"id": "C61", "title": "Minimum force search", "statement": "find_minimum_force and its damped variant terminate for every stress response; the returned force brings the maximum envelope value to 1 within the tolerance, or is reported for a slab already failing everywhere, or is the documented failure value 0. The values reported with it are the largest and the smallest envelope value over all samples of the weak layer.", "quantifier": "all stress-response functions", "why_tests_cant": "arbitrary oracle behaviour", "anchors": ["examples/criterion_check.py:find_minimum_force", "examples/criterion_check.py:find_minimum_force_dampened"]}
{"id": "C62", "title": "Coupled criterion result", "statement": "When the coupled criterion reports success without self-collapse or pure stress, the reported force satisfies the energy criterion within 0.002, the bracket stays ordered, and the number of iterations is bounded.", "quantifier": "all response functions", "why_tests_cant": "arbitrary oracle behaviour", "anchors": ["examples/criterion_check.py:check_coupled_criterion_anticrack_nucleation"]}
{"id": "C63", "title": "Fallback keeps the caller's parameters", "statement": "When the coupled criterion falls back to its damped variant, the damped variant is called with the caller's material parameters.", "quantifier": "all parameters", "why_tests_cant": "rare branch", "anchors": ["examples/criterion_check.py:check_coupled_criterion_anticrack_nucleation"]}
{"id": "C64", "title": "Skier placement", "statement": "create_skier_object keeps the segment lengths and places the skier weight at one transition, the midpoint when the midpoint is a segment boundary.", "quantifier": "all segment lists", "why_tests_cant": "all lists", "anchors": ["examples/criterion_check.py:create_skier_object"]}
{"id": "C65", "title": "Plot outline is the closed perimeter", "statement": "outline returns the boundary values of a grid as a closed loop in clockwise order visiting each boundary cell.", "quantifier": "all grid sizes", "why_tests_cant": "all sizes", "anchors": ["weac/plot.py:outline"]}
{"id": "C66", "title": "Dummy profiles", "statement": "Every profile identifier in the database (in any letter case) yields an admissible slab; all other identifiers raise ValueError.", "quantifier": "all strings", "why_tests_cant": "all strings", "anchors": ["weac/tools.py:load_dummy_profile"]}
{"id": "C67", "title": "The assembled problem is well posed", "statement": "For every admissible slab and foundation (with kt t^2 < 16 kA55) and every valid segment list with at least one supported segment of positive length, the assembled 6N x 6N system is regular: the boundary value problem has exactly one solution and assemble_and_solve returns it, for any number of segments, any loads and any inclination.", "quantifier": "all N, parameters, supports, loads, inclinations, system types and contact stages", "why_tests_cant": "non-singularity of a matrix of unbounded size for all real parameters", "anchors": ["weac/mixins.py:SolutionMixin.assemble_and_solve", "weac/mixins.py:FieldQuantitiesMixin.zh", "weac/eigensystem.py:Eigensystem.zh"]}
{"id": "C68", "title": "Rotational substitute spring is finite and positive", "statement": "For every admissible slab and foundation and every length L > 0, substitute_stiffness with degree of freedom \"rot\" returns a finite positive number (supported or rested), whatever inclination and surface load.", "quantifier": "all admissible objects, lengths, both support kinds", "why_tests_cant": "sign of a solution of a linear system for all parameters", "anchors": ["weac/mixins.py:SlabContactMixin.substitute_stiffness"]}
{"id": "C69", "title": "Stage C end load uses the inclination being solved", "statement": "In contact stage C the axial force imposed at the tip of a PST is the slope-parallel load of the collapsed part for the inclination passed to assemble_and_solve.", "quantifier": "all stored inclinations and all argument inclinations", "why_tests_cant": "needs a state (stored inclination) that differs from the argument", "anchors": ["weac/mixins.py:SolutionMixin.assemble_and_solve", "weac/mixins.py:SlabContactMixin.calc_qt"]}
{"id": "C70", "title": "Method references resolve", "statement": "Every instance method referred to in a method of an exported class (Layered, Inverse) exists on that class.", "quantifier": "all methods of both classes along the method resolution order", "why_tests_cant": "class-composition property; a missing method shows only on the path that uses it", "anchors": ["weac/inverse.py:Inverse", "weac/layered.py:Layered", "weac/mixins.py"]}
{"id": "C71", "title": "Stored energy is the strain energy", "statement": "internal_potential (systems without end spring) is the strain energy of the laminate over the whole length plus the energy of the weak layer over the supported length.", "quantifier": "all laminates, loads, constants, segment lists", "why_tests_cant": "tests compare with values computed by the same code; the formula differs from the energy only for coupled laminates or partly supported slabs", "anchors": ["weac/mixins.py:OutputMixin.internal_potential"]}
{"id": "C72", "title": "Anticrack from the crossings of the stress criterion", "statement": "Given the places where the stress criterion is crossed, the unsupported points of the new model are exactly those where the criterion is exceeded, the reported crack length is their total length, and splitting at the middle keeps them.", "quantifier": "all lists of crossings, all continuous criterion functions with these sign changes", "why_tests_cant": "arbitrary number of crossings and any continuous stress profile", "anchors": ["examples/criterion_check.py:find_new_anticrack_length"]}
{"id": "C73", "title": "Search of the upper bracket weight", "statement": "The damped coupled criterion doubles the weight until the energy criterion is met: the weight it settles on meets the criterion, and the search ends.", "quantifier": "all response functions", "why_tests_cant": "arbitrary oracle behaviour, non-termination", "anchors": ["examples/criterion_check.py:check_coupled_criterion_anticrack_nucleation_dampened"]}
{"id": "C74", "title": "Existence of the eigenvalue decomposition", "statement": "For admissible parameters the system matrix has six different eigenvalues with true eigenvectors exactly when the discriminant of its characteristic polynomial does not vanish, and one eigensolver makes every such object ready to be solved; the condition cannot be dropped.", "quantifier": "all admissible parameters and objects", "why_tests_cant": "the exceptional parameters have measure zero and are never hit by sampling", "anchors": ["weac/eigensystem.py:calc_system_matrix", "weac/eigensystem.py:calc_eigensystem"]}
{"id": "C75", "title": "Diverging colour normalisation", "statement": "MidpointNormalize maps the midpoint to 1/2, is linear with one and the same scale on both sides of it, clamps outside the limits, stays within 0..1 and reaches 0 or 1 at the farther limit.", "quantifier": "all real limits and midpoints strictly between them, all values", "why_tests_cant": "continuous ranges", "anchors": ["weac/plot.py:MidpointNormalize.__call__"]}
{"id": "C76", "title": "Decimal place of the leading digit", "statement": "significant_digits(d) = n with 10^-n <= d < 10^(1-n).", "quantifier": "all positive reals", "why_tests_cant": "all magnitudes", "anchors": ["weac/plot.py:significant_digits"]}
{"id": "C77", "title": "Levels concentrated around zero", "statement": "tight_central_distribution returns 2*floor(samples/2)-1 strictly increasing values from -limit to limit, symmetric about and containing zero, with spacing that does not shrink away from zero.", "quantifier": "all positive limits, tightness >= 1, samples >= 4", "why_tests_cant": "real exponents, all sizes", "anchors": ["weac/plot.py:tight_central_distribution"]}
{"id": "C78", "title": "Limit of the contour colour scale", "statement": "The colour limit is the largest magnitude among all plotted slab and weak-layer values, rounded to one digit, and so at least two thirds of every plotted value.", "quantifier": "all value arrays, NaN included", "why_tests_cant": "all arrays, NaN propagation", "anchors": ["weac/plot.py:deformed"]}
{"id": "C79", "title": "Touchdown distances belong to the caller's slope", "statement": "The first-contact length, the full-contact length and the steady-state touchdown distance are the contact lengths of the caller's slab and weak layer on a 100 m column, all three with the crack height of the caller's inclination.", "quantifier": "all layers, elastic constants, weak layers and inclinations", "why_tests_cant": "all inclinations and layerings; the order of hidden object state matters", "anchors": ["weac/tools.py:touchdown_distance", "weac/mixins.py:calc_segments", "weac/mixins.py:set_touchdown_attributes"]}
{"id": "C80", "title": "The inverse model is the layered model with fitted parameters", "statement": "An Inverse object has exactly the state of a Layered object whose slab and weak layer are set to the fitting parameters, is admissible, and can be created with its default arguments.", "quantifier": "all layer lists and parameters", "why_tests_cant": "state equality over all inputs, including cached matrices", "anchors": ["weac/inverse.py:Inverse.__init__", "weac/layered.py:Layered.__init__", "weac/eigensystem.py:set_beam_properties"]}
{"id": "C81", "title": "Transverse normal stress at the slab faces", "statement": "On supported segments the transverse normal stress in the slab equals the normal surface load at the slab surface and the weak-layer normal stress at the slab bottom.", "quantifier": "all layered slabs, loads, inclinations, solutions and mesh sizes", "why_tests_cant": "double integration over arbitrary layerings and all mesh sizes; a sampled comparison cannot separate the discretisation error from a systematic one", "anchors": ["weac/mixins.py:Szz", "weac/mixins.py:get_zmesh", "weac/mixins.py:dz_dxdx"]}
{"id": "C82", "title": "The supported solution formula is the general solution", "statement": "On a supported segment the formula with six constants represents every state at the left end, and every slab in equilibrium on the weak layer, by exactly one choice of the constants.", "quantifier": "all solvable models, loads, segment lengths and equilibrium fields", "why_tests_cant": "quantifies over all solutions of a differential equation", "anchors": ["weac/eigensystem.py:zh", "weac/eigensystem.py:zp", "weac/eigensystem.py:z"]}
{"id": "C83", "title": "Global moment balance", "statement": "The moments of the weak-layer reactions about the left end of the slab balance the moments of weight, surface load, skiers and end forces.", "quantifier": "all solvable models, loads, segment lists and solutions of the boundary value problem", "why_tests_cant": "integrals over all solutions; a missing moment is small against the others in any sampled case", "anchors": ["weac/mixins.py:calc_segments", "weac/mixins.py:assemble_and_solve", "weac/eigensystem.py:zp"]}
{"id": "C84", "title": "Geometry of the deformed slab", "statement": "The deformation figure shows every slab and weak-layer point at its scaled displaced position, the weak layer attached below the slab, inside the axis limits.", "quantifier": "all layered slabs, rasterised solutions, mesh sizes, scales, windows and pads", "why_tests_cant": "all meshes, sizes and NaN patterns; pictures are only inspected by eye", "anchors": ["weac/plot.py:deformed"]}
{"id": "C85", "title": "Colours of the deformed slab", "statement": "Each point of the deformation figure is coloured by the chosen quantity at that point, undefined quantities are rejected, and the colour scale is symmetric and set by the largest shown value.", "quantifier": "all layered slabs, solutions, field names and numbers of levels", "why_tests_cant": "all fields and NaN patterns; a wrong scale still gives a plausible picture", "anchors": ["weac/plot.py:deformed", "weac/plot.py:tight_central_distribution"]}
{"id": "C86", "title": "Snow profile figure", "statement": "The profile shows at every height inside a layer the density of that layer and fits the axis range.", "quantifier": "all layered slabs and heights", "why_tests_cant": "all layer sequences and heights", "anchors": ["weac/plot.py:slab_profile"]}
{"id": "C87", "title": "Annotations of line plots", "statement": "Line plots shade exactly the unsupported segments, mark every skier and place every curve label on its curve, and the plotting functions succeed for every input they document.", "quantifier": "all segment lists, skier weights, curves and numbers of points", "why_tests_cant": "index arithmetic that wraps silently through negative indices for some numbers of points only", "anchors": ["weac/plot.py:plot_data", "weac/plot.py:err_modes", "weac/plot.py:err_comp", "weac/plot.py:fea_disp"]}
{"id": "C88", "title": "Self-propagation of cracks", "statement": "A crack is judged self-propagating exactly when the toughness criterion of the mean energy release rates at its tips reaches one; the direction of the slope does not matter; the search for the shortest such crack returns a crack at the limit, or None if there is none.", "quantifier": "all layered slabs, weak layers, slopes, segmentations and search intervals", "why_tests_cant": "each verdict is the solution of a boundary value problem; the search depends on the root finder", "anchors": ["examples/criterion_check.py:check_crack_propagation_criterion", "examples/criterion_check.py:g_delta_diff_objective", "examples/criterion_check.py:find_min_crack_length_self_propagation"]}
{"id": "C89", "title": "Plotted failure curves", "statement": "Every plotted failure curve rises to one peak, falls to zero at the largest bearable normal stress, is concave and continuous there and zero beyond; unknown samples are rejected.", "quantifier": "all normal stresses, scaling factors, exponents, densities and samples", "why_tests_cant": "continuity and concavity are statements about all real stresses; sampled curves hide jumps", "anchors": ["examples/criterion_check.py:failure_envelope_mede", "examples/criterion_check.py:failure_envelope_adam_unpublished", "examples/criterion_check.py:failure_envelope_schottner", "examples/criterion_check.py:failure_envelope_chandel"]}
{"id": "C90", "title": "Cutting a segment changes nothing", "statement": "Dividing a segment in two by an unloaded transition leaves every state of the solved slab unchanged.", "quantifier": "all objects, layouts, supports, loads and cutting points, including zero-length pieces", "why_tests_cant": "each layout is a different linear system; agreement is for all points and all cuts", "anchors": ["weac/mixins.py:SolutionMixin.assemble_and_solve", "weac/mixins.py:SolutionMixin.eqs"]}
{"id": "C91", "title": "Continuous dependence on the layout", "statement": "The solved fields depend continuously on segment lengths and skier weights, uniformly in the coordinate, even where segments shrink to length zero.", "quantifier": "all objects, supports and layouts with a supported segment; every tolerance", "why_tests_cant": "continuity is a statement about all nearby layouts and all tolerances", "anchors": ["weac/mixins.py:SolutionMixin.assemble_and_solve", "weac/mixins.py:FieldQuantitiesMixin.z"]}
{"id": "C92", "title": "Incremental rate of a vanishing crack", "statement": "As a new crack shrinks to nothing, its incremental energy release rate tends to the rate of the uncracked slab at that place: to GI in mode I and to minus GII in mode II; so do the rates of crack growth at either tip.", "quantifier": "all objects, layouts, crack positions and quadratures whose error vanishes faster than the crack", "why_tests_cant": "a limit over all crack lengths; quadrature and cancellation hide it in floating point", "anchors": ["weac/mixins.py:AnalysisMixin.ginc", "weac/mixins.py:AnalysisMixin.int1", "weac/mixins.py:AnalysisMixin.int2"]}
{"id": "C93", "title": "External and total potential", "statement": "For a PST the external potential is minus the work of weight and surface load on the displacements of the solution (the settled rest of the slab moves with the end), and the total potential is the stored energy less this work.", "quantifier": "all objects, solution constants, layouts and total lengths", "why_tests_cant": "a quantity without reference value in the tests; wrong signs or load positions go unnoticed", "anchors": ["weac/mixins.py:AnalysisMixin.external_potential", "weac/mixins.py:AnalysisMixin.total_potential"]}
{"id": "C94", "title": "Coupled criterion judged by the released energy", "statement": "Every result of the coupled criterion that reports a crack rests on the energy released between two solved models (uncracked and cracked, same weight, right units); a slab that fails under its own weight is reported as collapsing by itself at weight 0 with the whole model cracked.", "quantifier": "all layer lists, weak layers, slopes, envelopes, solvers and quadratures of known accuracy", "why_tests_cant": "the iteration visits weights and crack lengths no test enumerates; only the outcome is visible", "anchors": ["examples/criterion_check.py:check_coupled_criterion_anticrack_nucleation", "examples/criterion_check.py:fracture_toughness_criterion", "weac/mixins.py:AnalysisMixin.ginc"]}
{"id": "C95", "title": "Stored energy equals half the work", "statement": "In a solved model twice the energy stored in slab and weak layer equals the work of all loads and end forces.", "quantifier": "all objects, layouts, supports, loads", "why_tests_cant": "integral identity over all solutions; a discretised energy hides a mismatch", "anchors": ["weac/eigensystem.py:Eigensystem.calc_system_matrix", "weac/mixins.py:FieldQuantitiesMixin.tau"]}
{"id": "C96", "title": "Incremental energy release rate is not negative", "statement": "The total incremental energy release rate of a crack opened in a supported slab is never negative.", "quantifier": "all slabs, slopes and crack lengths", "why_tests_cant": "the repository's test looks at one crack on flat ground, and at the third entry, which is mode II and not the total", "anchors": ["weac/mixins.py:AnalysisMixin.ginc", "tests/test_layered.py:TestLayered.test_ginc"]}
{"id": "C97", "title": "The incremental rate is released energy", "statement": "Twice the new crack length times the incremental rate equals the additional work of the (dead) loads when the crack opens, that is twice the energy released.", "quantifier": "all slabs, loads, layouts, supports that only vanish, and quadratures of known accuracy", "why_tests_cant": "an identity between integrals of two different solutions", "anchors": ["weac/mixins.py:AnalysisMixin.ginc", "weac/mixins.py:SolutionMixin.assemble_and_solve"]}
{"id": "C98", "title": "Line plots show the solution", "statement": "The curves of the displacement, section force, weak-layer stress, energy release rate and stress criterion plots are the quantities of the solution at their positions (or crack lengths), in the labelled unit and sign; stresses are shown exactly on the foundation.", "quantifier": "all models, solution constants, segment lists, crack lengths and numbers of raster points", "why_tests_cant": "figures are compared with nothing; labels, units, modes or signs may be exchanged unnoticed", "anchors": ["weac/plot.py:displacements", "weac/plot.py:section_forces", "weac/plot.py:stresses", "weac/plot.py:stress_criteria", "weac/plot.py:err_modes", "weac/plot.py:err_comp", "weac/plot.py:plot_data"]}
{"id": "C99", "title": "Adjusted colours", "statement": "adjust_lightness returns a colour whose lightness is the given multiple (at most 1), with hue and saturation unchanged; amount 1 changes nothing.", "quantifier": "all colours and amounts", "why_tests_cant": "piecewise formulas around the colour wheel", "anchors": ["weac/plot.py:adjust_lightness"]}
{"id": "C100", "title": "Arguments of the solver", "statement": "Solving leaves the caller's segment sequences unchanged, the constants fit the sequences, and solving again with the same sequences gives the same constants.", "quantifier": "all models, segment lists, and lists or arrays as arguments", "why_tests_cant": "needs a second call with the same objects; tests build fresh lists", "anchors": ["weac/mixins.py:assemble_and_solve", "weac/mixins.py:rasterize_solution"]}
{"id": "C101", "title": "Change of units", "statement": "Describing the same slab, weak layer, loads and segments in other units of length, force and mass gives the same states, section forces, stresses and energy release rates, converted to the new units.", "quantifier": "all positive unit factors, slabs, weak layers, segment lists, systems and contact stages", "why_tests_cant": "a wrong power or a missing factor is invisible in the one unit system the tests use", "anchors": ["weac/eigensystem.py:calc_laminate_stiffness_matrix", "weac/eigensystem.py:calc_system_matrix", "weac/tools.py:calc_vertical_bc_center_of_gravity", "weac/mixins.py:assemble_and_solve", "weac/mixins.py:substitute_stiffness", "weac/mixins.py:Szz", "weac/mixins.py:gdif"]}
{"id": "C102", "title": "Heavier skiers sink in further", "statement": "If the weights of skiers change, the slab under them moves, in total, the way the weights change; a single heavier skier sinks in strictly further in the direction of gravity, in proportion to the added weight, on level ground with more compression of the weak layer, and every depth belongs to exactly one weight.", "quantifier": "all admissible slabs and weak layers (kt t^2 < 16 kA55), slopes, systems with skiers, contact stages, segment lists and weights", "why_tests_cant": "monotonicity over all layouts and weights cannot be sampled; a sign error in one load component or one row of the assembled system shows only for some slopes", "anchors": ["weac/mixins.py:assemble_and_solve", "weac/mixins.py:eqs", "weac/mixins.py:bc", "weac/tools.py:get_skier_point_load", "weac/mixins.py:sig", "weac/mixins.py:w"]}
{"id": "C103", "title": "Energy release rates against skier weight", "statement": "Along a line of skier weights the differential energy release rate is quadratic in each mode with a square that is not negative, and the toughness criterion of a crack is convex in the weight of the skier: no weight between two that do not propagate the crack does.", "quantifier": "all solved models, layouts, slopes and weights", "why_tests_cant": "convexity and the exact quadratic law hold between all weights, tests compare single values", "anchors": ["weac/mixins.py:gdif", "weac/mixins.py:Gi", "weac/mixins.py:Gii", "examples/criterion_check.py:fracture_toughness_criterion", "examples/criterion_check.py:check_crack_propagation_criterion", "examples/criterion_check.py:create_skier_object"]}
{"id": "C104", "title": "Soft weak layers are always solvable", "statement": "A model made by the constructor and the setters from admissible arguments has six different eigenvalues, so the solution formulas apply, whenever the weak layer is soft; for every slab, thickness and Poisson's ratio there is a positive modulus below which exactly the weak layers are soft. The default weak layer is soft under every uniform slab of at least 230 kg/m3 and 10 mm to 1 m, and under every profile of the database.", "quantifier": "all layer lists with positive densities and thicknesses, all profile names, sequences of setters, weak layers with -1 < nu < 1 and eigensolvers that find six different eigenvalues where there are six", "why_tests_cant": "coinciding eigenvalues lie on a surface of measure zero in the space of parameters and are never sampled", "anchors": ["weac/eigensystem.py:calc_eigensystem", "weac/eigensystem.py:calc_system_matrix", "weac/eigensystem.py:set_foundation_properties", "weac/eigensystem.py:set_beam_properties", "weac/layered.py:Layered", "weac/tools.py:load_dummy_profile"]}
{"id": "C105", "title": "A complete analysis never fails", "statement": "On a soft weak layer, for every system, slope and crack within the slab, segments are calculated, the problems with and without crack are solved, both solutions are rasterised over the whole slab and nothing else, and both energy release rates are numbers, the differential ones not negative. With touchdown the same holds once the segments are calculated.", "quantifier": "all models made by constructor and setters from admissible arguments, with sound and complete linear solvers and any quadrature; all raster resolutions, units, slopes, weights and crack lengths 0 < a < L", "why_tests_cant": "tests run a handful of geometries; an exception or a singular system for some geometry stays unseen", "anchors": ["weac/mixins.py:calc_segments", "weac/mixins.py:assemble_and_solve", "weac/mixins.py:rasterize_solution", "weac/mixins.py:gdif", "weac/mixins.py:ginc", "weac/layered.py:Layered"]}
{"id": "C106", "title": "Weak layers without six eigenvalues are exceptions", "statement": "For every slab and every thickness and Poisson's ratio of the weak layer there are at least one and at most three moduli of the weak layer for which the eigenvalue problem has no six different eigenvalues; all of them lie at or above the soft limit of C104. Every other weak layer can be solved. Likewise at most three stiffness ratios of the collapsed weak layer are exceptions, and a propagation saw test with touchdown is analysed completely for all others that are stable.", "quantifier": "all models made by constructor and setters from admissible arguments; all moduli > 0, thicknesses > 0, Poisson's ratios in (-1,1), stiffness ratios", "why_tests_cant": "exceptional moduli are isolated real numbers: no sampling finds them or counts them", "anchors": ["weac/eigensystem.py:calc_system_matrix", "weac/eigensystem.py:calc_eigensystem", "weac/eigensystem.py:set_foundation_properties", "weac/mixins.py:substitute_stiffness", "weac/mixins.py:set_stiffness_ratio"]}
{"id": "C107", "title": "Bounds of the springs that replace supported parts of the slab", "statement": "For every model, support and length L the rotational spring that replaces a supported part is positive, at most that of a rigid slab (kn L^3/12), and at least the explicit stiffness of a slab held over any shorter length s. The translational spring of a supported part obeys the analogous bounds (rigid slab: kn L/4), corrected by the settlement the code adds, as long as the load on the part is below the unit force times 4.", "quantifier": "all models whose eigenvalue problem can be solved; all lengths L > 0; all s in (0,L]", "why_tests_cant": "the bounds hold for a continuum of lengths and layerings; tests compare single values", "anchors": ["weac/mixins.py:substitute_stiffness", "weac/eigensystem.py:zh", "weac/eigensystem.py:zp"]}
{"id": "C108", "title": "Window in which the touchdown analysis works", "statement": "If the column is long enough for the slab to reach the ground and short enough that it does not do so within a thousandth of the column, calc_segments finds both thresholds and succeeds for every crack up to full contact and for every crack beyond an explicit length; the whole analysis then succeeds. Columns longer than about a thousand contact lengths are rejected with ValueError for every crack, and touchdown_distance (column of 100 m) raises ValueError for every slab that touches down within 100 mm.", "quantifier": "all models that can be solved; all column lengths, crack lengths, slopes, collapse factors and stiffness ratios meeting the explicit bounds; every root finder that ends on a sign change", "why_tests_cant": "the window is bounded by all parameters together; tests run single columns inside it", "anchors": ["weac/mixins.py:calc_segments", "weac/mixins.py:calc_a1", "weac/mixins.py:calc_a2", "weac/mixins.py:calc_lC", "weac/mixins.py:calc_touchdown_mode", "weac/mixins.py:calc_touchdown_length", "weac/tools.py:touchdown_distance"]}
{"id": "C109", "title": "No crack length is left out of the touchdown analysis", "statement": "The springs that replace supported parts depend continuously on their length, so crack lengths of first and of full contact exist in every column of the window of C108. Every crack whose two thresholds are found can then be analysed, whatever its length.", "quantifier": "all crack lengths; all models that can be solved; every root finder that returns only sign changes and rejects equal signs", "why_tests_cant": "the lengths that fail form a short interval that depends on all parameters; a test would have to hit it by chance", "anchors": ["weac/mixins.py:calc_lC", "weac/mixins.py:calc_a1", "weac/mixins.py:calc_a2", "weac/mixins.py:calc_touchdown_length", "weac/mixins.py:substitute_stiffness"]}
{"id": "C110", "title": "Computed lengths of contact are true ones", "statement": "If the root finder ends on a sign change within a tolerance, the threshold of stage B that calc_segments uses lies within this tolerance of a crack length at which the free tip reaches the ground, the threshold of stage C within it of a crack length of full contact, and in stage C the touchdown length within it of an unsupported length with which the slab comes to rest horizontally on the collapsed layer; the stage is the one that these thresholds give.", "quantifier": "all models that can be solved, all column and crack lengths, slopes, collapse factors, ratios, tolerances and root finders", "why_tests_cant": "needs the continuity of springs computed by a linear system and the existence of exact roots, which no finite set of evaluations shows", "anchors": ["weac/mixins.py:calc_a1", "weac/mixins.py:calc_a2", "weac/mixins.py:calc_lC", "weac/mixins.py:calc_touchdown_mode", "weac/mixins.py:calc_touchdown_length", "weac/mixins.py:calc_segments"]}
{"id": "C111", "title": "Influence of skiers fades along the slab", "statement": "On a slab without cracks the displacements, the rotation and their derivatives at any point differ from those of the undisturbed slab by no more than a constant times the sum of the skiers' line loads, each reduced exponentially with its distance. With cracks the difference fades exponentially along both outer segments. Constant and rate depend on slab and weak layer only.", "quantifier": "all admissible slabs and weak layers, all solved skier systems, slopes, layouts, numbers and weights of skiers", "why_tests_cant": "a uniform bound over all layouts and loads; the library itself only prints a warning when an outer segment is shorter than five metres", "anchors": ["weac/mixins.py:SolutionMixin.bc", "weac/mixins.py:SolutionMixin.assemble_and_solve"]}
{"id": "C112", "title": "Length of the outer segments hardly matters", "statement": "Two models of the same slab without cracks and with the same skiers whose outer segments differ in length have solutions that differ, at each common point, by no more than a constant times what images of the skiers mirrored at the two ends of the shorter model would cause; constant and rate depend on slab and weak layer only.", "quantifier": "all admissible slabs and weak layers, all pairs of solved skier systems that differ in the lengths of the outer segments only", "why_tests_cant": "compares infinitely many pairs of models", "anchors": ["weac/mixins.py:SolutionMixin.bc", "weac/mixins.py:SolutionMixin.assemble_and_solve"]}
{"id": "C113", "title": "Small residuals mean small errors", "statement": "For every solvable model there is a constant such that, however the eigenpairs and the solution of the linear system are computed, the states of all segments differ from those of the true solution by at most this constant times (largest residual of the linear system + largest residual of the eigenpairs times the sum of the absolute values of the computed constants); likewise the weak-layer stresses. The constant does not depend on the computed numbers.", "quantifier": "all solvable models, layouts, skiers and systems, all eigenpairs with any residual, all linear solvers with any residual", "why_tests_cant": "numerical tests compare a few computed solutions with others computed the same way; a bound against the true solution for every way of computing needs an argument about the differential equations", "anchors": ["weac/eigensystem.py:Eigensystem.calc_eigensystem", "weac/mixins.py:SolutionMixin.assemble_and_solve"]}
{"id": "C114", "title": "Energy release rates are robust against inexact numerics", "statement": "For every solvable model there is a constant K such that, however eigenpairs, linear solution and integrals are computed, the differential energy release rates of the computed constants differ from those of the true constants by at most K e (1 + e), e being the size of the residuals as in C113, and the incremental ones by at most K (e0 + e1 + e0 e1) plus the error of the quadrature times the number of segments over twice the crack length, e0 and e1 belonging to the uncracked and the cracked model.", "quantifier": "all solvable models, layouts, skiers, systems and crack patterns, all eigenpairs, linear solvers and quadratures with any residuals", "why_tests_cant": "tests compare energy release rates computed by one numerical library; the true rates are not available to a test", "anchors": ["weac/mixins.py:AnalysisMixin.gdif", "weac/mixins.py:AnalysisMixin.ginc", "weac/mixins.py:SolutionMixin.assemble_and_solve"]}
{"id": "C115", "title": "The response of a cracked slab is bounded by the loads, however long the model is", "statement": "For given slab and weak layer and a given bound on the stretch that contains cracks and skiers, there are constants C and kappa such that in every solved skier model whose outer segments are supported and at least 1 mm long, the state of the slab differs from its state at rest at every point, also over the cracks, by at most C times the sum of the skiers' line loads and the slab's load. In the outer segments this bound is reduced by the factor exp(-kappa d), d being the distance from the inner end of the segment.", "quantifier": "all skier models, slopes, layouts, numbers of cracks and skiers, weights, outer lengths of 1 mm or more, and all points", "why_tests_cant": "the constants do not depend on the length of the outer segments, which is unbounded; tests solve single layouts", "anchors": ["weac/mixins.py:SolutionMixin.assemble_and_solve", "weac/mixins.py:SolutionMixin.calc_segments"]}
{"id": "C116", "title": "The length of the outer segments of a cracked slab hardly matters", "statement": "For given slab and weak layer and a given bound on the stretch that contains cracks and skiers, there are constants C and kappa such that two solved skier models that differ only in outer segments that reach further have states that differ at every common point, also over the cracks, by at most C times the loads times the sum of exp(-kappa l) over the two outer lengths l of the shorter model.", "quantifier": "all pairs of skier models with the same slab, slope, inner segments, cracks and skiers, outer lengths of 1 mm or more, and all common points", "why_tests_cant": "a statement about all pairs of layouts with an exponential rate; tests compare one pair with one tolerance", "anchors": ["weac/mixins.py:SolutionMixin.calc_segments", "weac/mixins.py:SolutionMixin.assemble_and_solve"]}
{"id": "C117", "title": "Energy release rates hardly depend on the length of the outer segments", "statement": "For given slab and weak layer and a given bound on the stretch that contains cracks and skiers, there are constants C and kappa such that the differential energy release rates (each mode and total) of two solved skier models that differ only in outer segments that reach further differ by at most C times the number of segment boundaries times the squared loads times the sum of exp(-kappa l) over the two outer lengths l of the shorter model. The same holds for the incremental rates, without the number of boundaries but with the error of the quadrature divided by the crack length added.", "quantifier": "all pairs of skier models with the same slab, slope, inner segments, cracks and skiers, outer lengths of 1 mm or more, all units, all quadratures of a given accuracy", "why_tests_cant": "a statement about all pairs of layouts with an exponential rate; tests compare one pair with one tolerance", "anchors": ["weac/mixins.py:AnalysisMixin.gdif", "weac/mixins.py:AnalysisMixin.ginc", "weac/mixins.py:SolutionMixin.calc_segments"]}
{"id": "C118", "title": "Backward stable numerics give results as accurate as the arithmetic", "statement": "For a given model with a true solution, and given bounds on the size and the condition of the computed eigenvectors, there are constants K, S and a positive threshold such that whenever the eigenpairs have residual rho, the linear solver has relative residual eps, and eps + rho is below the threshold, the computed constants have an absolute sum of at most S, and all computed states differ from the true ones by at most K (eps + rho). The differential energy release rates then differ by at most K (eps + rho), the incremental ones by at most that plus the error of the quadrature. Exact eigensystems always meet the bounds on size and condition for some values.", "quantifier": "all models with positive stiffness in one of the modelled systems, all eigensolvers and linear solvers that meet the assumptions, all positions", "why_tests_cant": "a statement about every numerical method of a given accuracy; a test sees one machine's rounding", "anchors": ["weac/mixins.py:SolutionMixin.assemble_and_solve", "weac/mixins.py:AnalysisMixin.gdif", "weac/mixins.py:AnalysisMixin.ginc", "weac/eigensystem.py:Eigensystem.calc_eigensystem"]}
{"id": "C119", "title": "The predefined profiles follow the density law of the library", "statement": "Every layer of every predefined profile except 'comp' has a Young's modulus within one percent of what the default density law gives for its density. So a slab set by the name of a profile has, within one percent, the extensional, bending and shear stiffness of the same layers given as a list with default parameters, and the same thickness and centroid. The profile 'comp' follows Scapozza's law instead and is less than a third as stiff as the default law says. Profile B is profile A upside down, F is E upside down, all others are symmetric, and all but 'comp' are 360 mm thick.", "quantifier": "all spellings of all profile names, all objects, all Poisson's ratios between -1 and 1", "why_tests_cant": "tests compare single profiles in code with stored results; whether the tabulated moduli belong to the density law is a statement about real powers", "anchors": ["weac/tools.py:load_dummy_profile", "weac/tools.py:bergfeld", "weac/tools.py:scapozza", "weac/eigensystem.py:Eigensystem.set_beam_properties"]}
{"id": "C120", "title": "The critical weight of a skier exists, is unique, and is found with a known accuracy", "statement": "For a layered profile with working numerics and an uncracked segmentation whose middle is a boundary, the weak-layer stresses of every sample of create_skier_object are affine functions of the weight of the skier; without a skier every sample carries the components of the weight of the slab. With a quadratic envelope that the slab alone does not reach: (1) at most one weight makes the largest envelope value exactly 1; every lighter skier stays below the envelope everywhere and every heavier one exceeds it somewhere; (2) if segments and load are symmetric and the slope is not vertical, such a weight exists; (3) find_minimum_force returns 0, or 1 when one kilogram suffices, or a weight whose relative error against the critical one is at most 0.01/(1 - M0), where M0 is the envelope value of the slab alone.", "quantifier": "all layered profiles, inclinations, segmentations, weak-layer properties, skier weights, envelope parameters, and eigensolvers and linear solvers that return correct results", "why_tests_cant": "Existence and uniqueness of the critical weight and an error bound of the search quantify over all real weights and all profiles; a test observes single searches and does not know the exact critical weight.", "anchors": ["examples/criterion_check.py:1600-1783", "examples/criterion_check.py:964-1130", "examples/criterion_check.py:2348-2440", "weac/mixins.py:187-238"]}
{"id": "C121", "title": "The minimum force search finds the critical weight", "statement": "For a layered profile with working numerics, an uncracked segmentation whose middle is a boundary, and a quadratic envelope of which the slab alone uses at most a quarter: if the critical weight lies between 2^-16 and 2^16 kg, find_minimum_force returns and never reports the failure value 0; its result is 1 (and one kilogram suffices) or differs from the critical weight by at most the relative error 0.01/(1 - M0). In a symmetric model the compression under the load is at least that of the slab plus that of the load on a tent-shaped deflection of the two adjacent segments, so the critical weight has an explicit upper bound.", "quantifier": "all layered profiles, inclinations, segmentations, weak-layer properties, envelope parameters, and eigensolvers and linear solvers that return correct results", "why_tests_cant": "That an iteration with a fixed budget of 50 steps always converges is a statement about all profiles and all starting distances from the critical weight; a test observes single runs.", "anchors": ["examples/criterion_check.py:1600-1783", "examples/criterion_check.py:1786-1972", "examples/criterion_check.py:964-1130", "examples/criterion_check.py:2348-2440"]}
{"id": "C122", "title": "The minimum force search gives up only if no weight is critical", "statement": "If a critical weight exists and the slab alone uses at most a quarter of a quadratic envelope, find_minimum_force returns a weight within one percent (relative to the share left to the skier) of the critical weight, or one kilogram if less suffices.", "quantifier": "all layered profiles, inclinations, segmentations, weak-layer properties and envelope strengths", "why_tests_cant": "The failure value 0 is returned silently after two loops of 50 steps; whether it can occur although a critical weight exists is a statement about the whole iteration.", "anchors": ["examples/criterion_check.py:1600-1783", "examples/criterion_check.py:1786-1972"]}
{"id": "C123", "title": "The crack the coupled criterion reports lies where the stress criterion is crossed", "statement": "Whenever the coupled criterion (undamped, damped, or after one of its fallbacks) reports success that is neither self-collapse nor pure stress failure, the reported crack length is the total length of the unsupported segments of one layout. Unless no segment is supported, the reported model has exactly this layout and carries the reported weight at its middle. The layout is either the first guess of 1 mm at 1.005 times the critical weight, or it follows from the crossings of the stress envelope in the uncracked model under the same reported weight: with the crossings in order and the first before the middle, the unsupported parts are those between the first and second, third and fourth, ... crossing and the reported length is the sum of these distances; with no crossing everything is supported (length 0) or nothing is (length of the model).", "quantifier": "all layered profiles, inclinations, envelopes, weak-layer properties, root finders, solvers and quadratures", "why_tests_cant": "The loop carries weight, crack length and layout in separate variables that are updated at different places; a result tuple that pairs the weight of one iteration with the crack of another looks plausible in every test.", "anchors": ["examples/criterion_check.py:284-470", "examples/criterion_check.py:721-961", "examples/criterion_check.py:1134-1267", "examples/criterion_check.py:1395-1535"]}
{"id": "C124", "title": "Crack length and self-propagation", "statement": "The value of the self-propagation check depends continuously on the crack length. As the crack closes it tends to the toughness criterion of the energy that the weight of the slab alone stores in the weak layer. If that value is above one, all sufficiently short cracks propagate and there is no shortest one. If it is below one, either no crack propagates or there is a shortest crack that does, and the criterion is then exactly met. The search among short cracks of such a slab raises ValueError.", "quantifier": "all layered slabs, weak layers, slopes and crack lengths shorter than the slab", "why_tests_cant": "a statement about limits and about the infimum over a continuum of boundary value problems", "anchors": ["examples/criterion_check.py:check_crack_propagation_criterion", "examples/criterion_check.py:find_min_crack_length_self_propagation"]}
{"id": "C125", "title": "A short crack raises the mode I energy release rate above that of the slab at rest", "statement": "For every slab at least 3 micrometres thick (so that its model is at least 3 mm long) on a slope with cos(phi) > 0 there is a length d > 0 such that for every crack of length 0 < a < d in the middle, the mean mode I rate reported by gdif for the model built by create_skier_object without skier exceeds (W cos(phi))^2 / (2 kn), the energy stored by compression in the undisturbed weak layer. On flat ground the value of check_crack_propagation_criterion then exceeds that of the slab at rest, so if the slab at rest meets the criterion (also exactly), all short cracks propagate and none is shortest.", "quantifier": "all layered profiles with stable laminate, all slopes with positive cosine (flat ground for the value of the check), all weak layers, all sound and complete solvers, all crack lengths below a bound that depends on the slab", "why_tests_cant": "The increase over the rest state is of the order of the crack length and vanishes with it; a test on sampled lengths cannot show the sign for all slabs and all short cracks.", "anchors": ["examples/criterion_check.py:check_crack_propagation_criterion", "examples/criterion_check.py:find_min_crack_length_self_propagation"]}
{"id": "C126", "title": "Saw tests: states are quadratic and energy release rates quartic polynomials of the cut length", "statement": "Take saw tests (pst without contact, vpst) with fixed segments followed by a hanging part of length a at the right end, some segment in front being supported with positive length. For any three different lengths a0, a1, a2 the six components of the state at every point in front of the cut, for every length a >= 0, are the values at a of the parabolas through those of a0, a1, a2. The mode I and mode II rates of gdif are polynomials of degree at most four in a. The states of cuts at the left end (-pst) obey the same rule.", "quantifier": "all objects with admissible laminate, all segment lists, supports and weights in front of the cut, all inclinations, all cut lengths, all sound solvers", "why_tests_cant": "A relation between solutions of linear systems of unbounded size for a continuum of cut lengths; sampled cuts cannot exclude other terms.", "anchors": ["weac/mixins.py:SolutionMixin.assemble_and_solve", "weac/mixins.py:SolutionMixin.bc", "weac/mixins.py:AnalysisMixin.gdif"]}
{"id": "C127", "title": "On level ground short saw cuts let the tip sink and raise the mode I energy release rate", "statement": "In saw tests without contact (pst) on level ground with downward load, the deflection of the slab at the tip of a cut at the right end is a parabola y + c a + d a^2 of the cut length a with c > 0, for any segments, supports and weights in front of it. So all cuts below some length let the tip sink deeper than no cut does. In a test with one supported segment and no added weight the mode I rate of gdif for every such cut exceeds q^2 / (2 kn), the energy stored by the slab at rest.", "quantifier": "all objects with stable laminate, all segment lists, supports and weights in front of the cut, all cut lengths (below a bound that depends on the slab for the comparison), all sound and complete solvers", "why_tests_cant": "The increase is of the order of the cut length and vanishes with it; its sign for all slabs cannot be sampled.", "anchors": ["weac/mixins.py:SolutionMixin.assemble_and_solve", "weac/mixins.py:SolutionMixin.bc", "weac/mixins.py:AnalysisMixin.gdif"]}
{"id": "C128", "title": "On level ground vertical and slab-normal faces give the same model", "statement": "At zero inclination the constants that assemble_and_solve returns for a vpst system equal those of the pst system without contact with the same slab, weak layer, loads and segments.", "quantifier": "all objects with stable laminate, all segment lists with at least two segments, supports and weights, all sound solvers", "why_tests_cant": "The two systems take different branches of bc, eqs and the right-hand side; equality must hold for all segment lists.", "anchors": ["weac/mixins.py:SolutionMixin.assemble_and_solve", "weac/mixins.py:SolutionMixin.bc", "weac/tools.py:calc_vertical_bc_center_of_gravity"]}
{"id": "C129", "title": "A model and its mirror image report the same energy release rates", "statement": "For a pst or skier system solved at inclination phi and the same system with reversed segments, weights and supports solved at -phi, gdif reports the same mode I rate; without normal point loads at the crack tips it also reports the same mode II and total rate. For a model with symmetric segments, weights and supports the rates are even in the inclination.", "quantifier": "all objects with stable laminate, all segment lists, supports and weights, all units accepted by gdif", "why_tests_cant": "gdif evaluates the state just left of every tip, which is not the mirror image of the state just left of the mirrored tip; equality needs the transmission conditions at every tip of every layout.", "anchors": ["weac/mixins.py:AnalysisMixin.gdif", "weac/mixins.py:SolutionMixin.assemble_and_solve"]}
