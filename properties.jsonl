{"id": "C01", "title": "divisors lists exactly the positive divisors, once each, ascending", "statement": "For every positive integer n, divisors(n) is the strictly increasing tuple of exactly those d with 1 <= d and d | n.", "quantifier": "every positive integer n", "why_tests_cant": "the claim is about every integer; tests sample a handful", "anchors": [{"file": "structrans/util/utils.py", "symbols": ["divisors"]}]}
{"id": "C02", "title": "hnf_from_diag enumerates all Hermite normal forms with the given diagonal, once each", "statement": "For every list of positive integer diagonal entries, hnf_from_diag returns, without repetition, exactly the lower triangular matrices with that diagonal whose entries left of the diagonal in row i lie in (-d_i, 0].", "quantifier": "every dimension and every diagonal", "why_tests_cant": "completeness of an enumeration over unbounded dimension and entries", "anchors": [{"file": "structrans/crystallography/hnf.py", "symbols": ["hnf_from_diag"]}, {"file": "structrans/crystallography/sublattice.py", "symbols": ["hnf_from_diag"]}]}
{"id": "C03", "title": "hnf_from_det enumerates all Hermite normal forms of determinant n, once each", "statement": "For every n >= 1 and N >= 1, hnf_from_det(n, N) returns without repetition exactly the N x N lower triangular integer matrices with positive diagonal of product n and row entries left of the diagonal in (-H_ii, 0]; a negative n raises ValueError; n = 0 returns just the zero matrix.", "quantifier": "every determinant and every dimension", "why_tests_cant": "completeness and no-duplication of an enumeration, for all n and N", "anchors": [{"file": "structrans/crystallography/hnf.py", "symbols": ["hnf_from_det"]}, {"file": "structrans/crystallography/sublattice.py", "symbols": ["hnf_from_det"]}]}
{"id": "C04", "title": "hnfd factors every full-rank integer matrix as M = H L with H in Hermite normal form and L unimodular", "statement": "For every square integer matrix M whose rows are linearly independent, hnfd(M) terminates normally and returns (H, L) with M = H L, H lower triangular with positive diagonal and row entries in (-H_ii, 0], and L an integer matrix with an integer inverse.", "quantifier": "every dimension, every full-rank integer matrix (exact integer arithmetic, Python 3 division)", "why_tests_cant": "termination and correctness for all matrices of all sizes", "anchors": [{"file": "structrans/crystallography/hnf.py", "symbols": ["hnfd", "__gcd_cols", "__nonneg_row", "__add_col", "__swap_cols"]}]}
{"id": "C05", "title": "hnfd is canonical: it depends only on the lattice spanned by the columns", "statement": "For all full-rank integer matrices M and every unimodular A, hnfd(M A) and hnfd(M) have the same H; a matrix already in Hermite normal form is returned unchanged with L = I; two matrices have equal H exactly when they differ by a unimodular right factor.", "quantifier": "every dimension, every pair of full-rank integer matrices", "why_tests_cant": "relational property over all pairs of inputs", "anchors": [{"file": "structrans/crystallography/hnf.py", "symbols": ["hnfd"]}]}
{"id": "C06", "title": "Every sublattice of index n is represented exactly once by hnf_from_det", "statement": "For every full-rank N x N integer matrix M there is exactly one H in hnf_from_det(n, N), n being the product of the diagonal of its Hermite form, such that M = H A with A unimodular.", "quantifier": "every dimension and every full-rank integer matrix", "why_tests_cant": "existence and uniqueness over an infinite domain", "anchors": [{"file": "structrans/crystallography/hnf.py", "symbols": ["hnf_from_det", "hnfd"]}]}
{"id": "C07", "title": "hnfd returns the same canonical form on Python 2.7 and Python 3 (both advertised in setup.py)", "statement": "For every full-rank integer matrix, hnfd run under Python 2 integer division returns a Hermite normal form, as under Python 3.", "quantifier": "every full-rank integer matrix", "why_tests_cant": "behavioural equivalence of two interpreters on all inputs", "anchors": [{"file": "structrans/crystallography/hnf.py", "symbols": ["hnfd"]}, {"file": "setup.py", "symbols": ["classifiers"]}]}
{"id": "C08", "title": "reduce_hnfs keeps exactly one representative per symmetry orbit", "statement": "For every list of Hermite normal forms and every finite group of unimodular integer matrices, reduce_hnfs (under Python 3) returns a sublist in which every input is symmetry-equivalent to some member and no two distinct members are symmetry-equivalent.", "quantifier": "every list of HNFs, every finite unimodular group, every dimension", "why_tests_cant": "all lists, all groups", "anchors": [{"file": "structrans/marttrans/lat_cor/main_hnf.py", "symbols": ["reduce_hnfs"]}]}
{"id": "C09", "title": "Parallel orbit reduction gives a valid transversal for every way of splitting the work", "statement": "Splitting the HNF list into consecutive chunks of any positive size loses and duplicates nothing, and reducing each chunk independently and then reducing the concatenation again yields a system of representatives of the same orbits as the serial reduction.", "quantifier": "every list, every chunk size, every group", "why_tests_cant": "all partitions of the work", "anchors": [{"file": "structrans/marttrans/lat_cor/main_hnf.py", "symbols": ["divide_work", "reduce_hnfs", "lat_cor"]}]}
{"id": "C10", "title": "The built-in symmetry tables are the full groups they claim to be", "statement": "CUBIC_LAUE_GROUP lists, once each, exactly the 3x3 integer matrices with Q Q^T = I and det Q = 1; SQUARE_EXT_GROUP exactly the orthogonal 2x2 integer matrices and SQUARE_GROUP those with det 1; HEX_LAUE_GROUP, HEX2D_GROUP and HEX2D_EXT_GROUP are closed under product and inverse, contain the identity, consist of distinct orthogonal matrices, of determinant 1 for the two rotation tables.", "quantifier": "every integer matrix (membership), every pair of table entries (closure)", "why_tests_cant": "membership is characterised over the infinite set of integer matrices", "anchors": [{"file": "structrans/crystallography/matrix_group.py", "symbols": ["CUBIC_LAUE_GROUP", "HEX_LAUE_GROUP", "SQUARE_EXT_GROUP", "SQUARE_GROUP", "HEX2D_EXT_GROUP", "HEX2D_GROUP"]}]}
{"id": "C11", "title": "hassubgroup decides the subgroup relation", "statement": "For every two matrix groups g and G, G.hassubgroup(g) is true exactly when every matrix of g is (up to the numerical tolerance) a matrix of G and the order of g divides the order of G; it is reflexive, and on true groups it is the subgroup relation. The constructor never checks the group axioms.", "quantifier": "every pair of finite matrix lists", "why_tests_cant": "all pairs of groups", "anchors": [{"file": "structrans/crystallography/matrix_group.py", "symbols": ["MatrixGroup.hassubgroup", "MatrixGroup.order", "MatrixGroup.matrices"]}]}
{"id": "C12", "title": "Lattice equality is an equivalence relation meaning 'generates the same lattice'", "statement": "For all nonsingular bases E1, E2, Lattice(E1) == Lattice(E2) is true exactly when the two column lattices coincide; in particular == is reflexive, symmetric and transitive.", "quantifier": "every pair of nonsingular bases of every dimension", "why_tests_cant": "a relation over all pairs of real matrices", "anchors": [{"file": "structrans/crystallography/lattice.py", "symbols": ["Lattice.__eq__"]}]}
{"id": "C13", "title": "inpointgroup(Q) accepts exactly the isometries that map the lattice onto itself", "statement": "For every lattice and every matrix Q, inpointgroup(Q) holds when Q is orthogonal and Q maps the lattice onto itself; and when it holds with the numerical tolerances met exactly, Q does map the lattice onto itself.", "quantifier": "every 2D/3D basis and every matrix Q", "why_tests_cant": "all lattices and all isometries", "anchors": [{"file": "structrans/crystallography/lattice.py", "symbols": ["Lattice.inpointgroup", "Lattice.__eq__", "_in_O3"]}]}
{"id": "C14", "title": "Laue_group returns a group of rotations that preserve the lattice", "statement": "For every 2D or 3D lattice, Laue_group() contains the identity, every element is a rotation accepted by inpointgroup, and the set is closed under products and inverses.", "quantifier": "every lattice basis", "why_tests_cant": "for every real basis, including nearly symmetric ones", "anchors": [{"file": "structrans/crystallography/lattice.py", "symbols": ["Lattice.Laue_group", "Lattice.point_group"]}]}
{"id": "C15", "title": "lattice_group and special_lattice_group are the integer representation of the point group", "statement": "For every 2D/3D lattice with base E, each matrix M returned by special_lattice_group (lattice_group) is an integer matrix satisfying E M = Q E for the corresponding Q of the Laue (point) group, has determinant 1 (resp. +-1), the list has the same order as the point group, and it is closed under multiplication when the point group is.", "quantifier": "every lattice", "why_tests_cant": "all lattices", "anchors": [{"file": "structrans/crystallography/lattice.py", "symbols": ["Lattice.special_lattice_group", "Lattice.lattice_group"]}]}
{"id": "C16", "title": "Laue_group finds every rotational symmetry of the lattice, whatever its orientation", "statement": "For every lattice L and every rotation R that maps L onto itself, R is in L.Laue_group(); equivalently the order of the Laue group does not change when the whole lattice is rotated.", "quantifier": "every lattice and every rotation", "why_tests_cant": "all orientations", "anchors": [{"file": "structrans/crystallography/lattice.py", "symbols": ["Lattice.Laue_group"]}]}
{"id": "C17", "title": "The conventional cell has the requested lattice parameters", "statement": "For each of the 14 + 5 Bravais types and all admissible parameters, the columns of conventional_base() have the requested edge lengths and enclose the requested angles.", "quantifier": "all lattice types and all positive real parameters", "why_tests_cant": "identity in real parameters", "anchors": [{"file": "structrans/crystallography/bravais_lattice.py", "symbols": ["BravaisLattice.__primitiveBase3D__", "BravaisLattice.__primitiveBase2D__", "BravaisLattice.conventional_base"]}]}
{"id": "C18", "title": "conventional_trans is an integer matrix with the right number of lattice points per cell", "statement": "For each Bravais type the matrix returned by conventional_trans() is an integer matrix of determinant 1, 2 or 4 (P, C/I, F) so that the conventional lattice is a sublattice of that index, and conventional_base = base * conventional_trans.", "quantifier": "all lattice types and parameters", "why_tests_cant": "identity in real parameters", "anchors": [{"file": "structrans/crystallography/bravais_lattice.py", "symbols": ["BravaisLattice.conventional_trans", "BravaisLattice.conventional_base"]}]}
{"id": "C19", "title": "Miller index conversions are mutually inverse and preserve the direction denoted", "statement": "For every Bravais lattice and every index or list of indices x of the right length, to_conventional_Miller(to_primitive_Miller(x)) = x and conversely, base * to_primitive_Miller(x) = conventional_base * x, and indices of the wrong length raise ValueError.", "quantifier": "all lattice types, all lists of real indices", "why_tests_cant": "round trip over all inputs", "anchors": [{"file": "structrans/crystallography/bravais_lattice.py", "symbols": ["BravaisLattice.to_primitive_Miller", "BravaisLattice.to_conventional_Miller"]}]}
{"id": "C20", "title": "The Laue group of a Bravais lattice has at least the symmetry of its crystal system", "statement": "For all parameters: cubic lattices have a Laue group of order 24, hexagonal ones of order 12, and the tetragonal, orthorhombic, trigonal, monoclinic and triclinic lattices have at least 8, 4, 6, 2 and 1 elements; point groups have twice the order.", "quantifier": "all positive real lattice parameters", "why_tests_cant": "for all real parameters", "anchors": [{"file": "structrans/crystallography/bravais_lattice.py", "symbols": ["BravaisLattice.__init__"]}, {"file": "structrans/crystallography/lattice.py", "symbols": ["Lattice.Laue_group", "Lattice.point_group"]}]}
{"id": "C21", "title": "BravaisLattice rejects exactly the malformed inputs with ValueError", "statement": "For every id, parameter list and dimension 2 or 3, construction raises ValueError when a parameter is not positive, the id is out of range, the number of parameters is wrong, or the resulting base is singular, and otherwise succeeds and reports back the id and parameters it was given.", "quantifier": "every id, parameter list and dim", "why_tests_cant": "every combination of inputs", "anchors": [{"file": "structrans/crystallography/bravais_lattice.py", "symbols": ["BravaisLattice.__init__", "BravaisLattice.Bravais_id", "BravaisLattice.lat_param"]}, {"file": "structrans/crystallography/lattice.py", "symbols": ["Lattice.__init__"]}]}
{"id": "C22", "title": "The description of a lattice shows every parameter under its own name", "statement": "For every Bravais lattice, str() lists each lattice parameter exactly once next to its conventional name (a, b, c, alpha, beta, gamma).", "quantifier": "every lattice type and parameters", "why_tests_cant": "all types and values", "anchors": [{"file": "structrans/crystallography/bravais_lattice.py", "symbols": ["BravaisLattice.__str__"]}]}
{"id": "C23", "title": "Euler returns the rotation obtained by applying the three axis rotations in order", "statement": "For all angles, axis orders (upper or lower case) and units, Euler returns R3 R2 R1, an orthogonal matrix of determinant 1; reversing the order and negating the angles gives its inverse; a wrong number of angles/axes or an unknown axis raises ValueError.", "quantifier": "all real angles, all axis strings", "why_tests_cant": "all real angles", "anchors": [{"file": "structrans/util/utils.py", "symbols": ["Euler"]}]}
{"id": "C24", "title": "rotation(angle, axis) is the right-handed rotation about the axis", "statement": "For every angle and every nonzero axis, rotation(angle, axis) is the matrix of Rodrigues' formula: orthogonal, determinant 1, fixes the axis, and rotation(s+t) = rotation(s) rotation(t).", "quantifier": "all real angles and nonzero axes", "why_tests_cant": "all real axes, including the special directions", "anchors": [{"file": "structrans/util/utils.py", "symbols": ["rotation"]}]}
{"id": "C25", "title": "direction and plane transforms are dual and invertible", "statement": "For every invertible correspondence L, direction d and plane p: plane_trans(L,p) . direc_trans(L,d) = p . d, and both maps are inverted by using the inverse correspondence; lists are transformed elementwise.", "quantifier": "all invertible matrices, all vectors", "why_tests_cant": "identity over all inputs", "anchors": [{"file": "structrans/marttrans/orientation_relationship.py", "symbols": ["direc_trans", "plane_trans"]}]}
{"id": "C26", "title": "setU accepts exactly symmetric positive definite stretch tensors and never changes the receiver", "statement": "For every argument list, setU either raises TypeError or returns a new Martensite whose U is symmetric positive definite, with the given entries in the documented places and the same Laue group; the receiver is unchanged.", "quantifier": "every argument list", "why_tests_cant": "all real inputs", "anchors": [{"file": "structrans/marttrans/martensite.py", "symbols": ["Martensite.setU", "Martensite.getU", "Martensite.setLaue", "Martensite.getLaue"]}]}
{"id": "C27", "title": "getvariants lists the orbit of U under the Laue group, once each, with the matching group indices", "statement": "For every U and finite group of rotations, the variants are pairwise different, every Q U Q^T is among them, each is of that form, the first is U; Laueidx partitions the group indices so that Q_i U Q_i^T is the variant its block belongs to; all blocks have the same size, so the number of variants divides the group order.", "quantifier": "all stretch tensors and finite groups", "why_tests_cant": "orbit-stabiliser statement for all inputs", "anchors": [{"file": "structrans/marttrans/martensite.py", "symbols": ["Martensite.calcvariants", "Martensite.getvariants", "Martensite.getLaueidx"]}]}
{"id": "C28", "title": "getvariant(n) returns the n-th variant for 1 <= n <= N and rejects other n", "statement": "For every n, getvariant(n) is the n-th element of getvariants() when 1 <= n <= N and raises an error otherwise.", "quantifier": "every integer n", "why_tests_cant": "all integers n", "anchors": [{"file": "structrans/marttrans/martensite.py", "symbols": ["Martensite.getvariant"]}]}
{"id": "C29", "title": "isreversible is the proper-subgroup test it documents", "statement": "isreversible() is true exactly when the symmetry group of U is a proper subgroup of the parent Laue group.", "quantifier": "all stretch tensors and groups", "why_tests_cant": "all inputs", "anchors": [{"file": "structrans/marttrans/martensite.py", "symbols": ["Martensite.isreversible"]}]}
{"id": "C30", "title": "The rank-one solvers return solutions of C = (I + m (x) b)(I + b (x) m) with unit normals", "statement": "For every symmetric C with eigenvalues l1 <= 1 = l2 <= l3, l1 < l3, l1 > 0, both pairs (b, m) returned by solve_rank1, AM_Solver and the twin module's solver satisfy (I + m (x) b)(I + b (x) m) = C and |m| = 1, and the solver's R is orthogonal with R sqrt(C) = I + b (x) m.", "quantifier": "all symmetric matrices with middle eigenvalue one", "why_tests_cant": "identity over a continuum of matrices", "anchors": [{"file": "structrans/util/utils.py", "symbols": ["solve_rank1"]}, {"file": "structrans/marttrans/Compatibility.py", "symbols": ["AM_Solver"]}, {"file": "structrans/marttrans/twin.py", "symbols": ["_solve_am"]}]}
{"id": "C31", "title": "isCompatible(A, B) holds only if A and B are rank-one connected up to a rotation", "statement": "For all invertible A, B: if isCompatible(A, B) then the middle eigenvalue of B^-T A^T A B^-1 is one (to 1e-5), the condition for some rotation Q to make Q A - B rank one.", "quantifier": "all invertible matrices", "why_tests_cant": "all real matrices", "anchors": [{"file": "structrans/marttrans/Compatibility.py", "symbols": ["isCompatible"]}, {"file": "structrans/mat_math.py", "symbols": ["eigSort"]}]}
{"id": "C32", "title": "Solvers validate that their input is positive definite", "statement": "For every 3x3 input, the positive-definite-symmetric check used by solve_rank1, TwinPair and the habit-plane solver accepts exactly the symmetric positive definite matrices (up to the symmetry tolerance).", "quantifier": "all 3x3 matrices", "why_tests_cant": "all real matrices", "anchors": [{"file": "structrans/util/utils.py", "symbols": ["pos_def_sym", "is_3_by_3"]}]}
{"id": "C33", "title": "TwinTable lists exactly the twinnable pairs i < j, in order, in step with getTwinpairs", "statement": "For every list of variants, TwinTable() is the lexicographically ordered list of exactly those (i, j), i < j, whose pair is twinnable, and getTwinpairs()[k] is the pair for entry k; repeated calls give the same answer; the type I and compound index lists partition the table.", "quantifier": "all lists of variants", "why_tests_cant": "all lists, all call histories", "anchors": [{"file": "structrans/marttrans/twin.py", "symbols": ["TwinSystem.TwinTable", "TwinSystem.getTwinpairs", "TwinSystem.getCompound", "TwinSystem.getTypeI", "TwinSystem.getConventional"]}]}
{"id": "C34", "title": "Twinnability is a symmetric relation between variants", "statement": "For all positive definite symmetric U, V: TwinPair(U, V).istwinnable() = TwinPair(V, U).istwinnable().", "quantifier": "all pairs of stretch tensors", "why_tests_cant": "all pairs", "anchors": [{"file": "structrans/marttrans/twin.py", "symbols": ["TwinPair.istwinnable"]}]}
{"id": "C35", "title": "isconventional answers for the group it is given, whatever was asked before", "statement": "For every history of calls on a TwinPair, isconventional(G) is true exactly when the pair is twinnable and some Q in G maps U_i to U_j.", "quantifier": "all call histories and all groups", "why_tests_cant": "quantifies over histories", "anchors": [{"file": "structrans/marttrans/twin.py", "symbols": ["TwinPair.isconventional"]}]}
{"id": "C36", "title": "Twin parameters solve the twinning equation", "statement": "For every symmetric positive definite U and unit axis e, with V = R U R^T and R the 180 degree rotation about e, both (Q, a, n) returned satisfy Q V = U + a (x) n with |n| = 1, and Q is orthogonal (before the 10-digit rounding of a and n).", "quantifier": "all stretch tensors and axes", "why_tests_cant": "identity over a continuum", "anchors": [{"file": "structrans/marttrans/twin.py", "symbols": ["_solvetwin", "TwinPair.twinparam"]}]}
{"id": "C37", "title": "Twin parameters are correct also when no 180 degree axis exists", "statement": "For every twinnable pair without a two-fold axis, the returned a, n satisfy (U + a (x) n)^T (U + a (x) n) = V^2 with |n| = 1.", "quantifier": "all such pairs", "why_tests_cant": "identity over a continuum", "anchors": [{"file": "structrans/marttrans/twin.py", "symbols": ["_solvetwin"]}]}
{"id": "C38", "title": "The twinning volume fraction makes the twinned laminate compatible with the parent", "statement": "For all U, a, n coming from a twinning equation Q V = U + a (x) n with det(V^2 - I) = det(U^2 - I): whenever the volume fraction f strictly between 0 and 1 is returned, det((U + f n (x) a)(U + f a (x) n) - I) = 0.", "quantifier": "all twins", "why_tests_cant": "polynomial identity over all inputs", "anchors": [{"file": "structrans/marttrans/twin.py", "symbols": ["_solve_f", "TwinPair.volumefrac", "_brute_cof"]}]}
{"id": "C39", "title": "habitplanes succeeds whenever iscompatible() is true", "statement": "For every twin pair, if iscompatible() is true then habitplanes() returns the habit planes and does not raise.", "quantifier": "all twin pairs", "why_tests_cant": "all inputs", "anchors": [{"file": "structrans/marttrans/twin.py", "symbols": ["TwinPair.habitplanes", "TwinPair.iscompatible"]}]}
{"id": "C40", "title": "ax returns exactly the two-fold axes that relate the two variants", "statement": "For all positive definite U and V = Q U Q^T (Q orthogonal) that differ by at least 1e-12 in some entry and whose matrix U^-1 V^2 U^-1 has middle eigenvalue one, in every call history: ax() returns, up to sign, exactly the unit vectors e such that the 180 degree rotation about e maps U to V (exact arithmetic).", "quantifier": "all pairs of variants, all call histories", "why_tests_cant": "identity over a continuum", "anchors": [{"file": "structrans/marttrans/twin.py", "symbols": ["TwinPair.ax"]}]}
{"id": "C41", "title": "Cauchy distance is a symmetry-invariant measure that vanishes exactly for strain-free correspondences", "statement": "For all invertible E1, E2 and all L: Cauchy_dist >= 0; it is 0 exactly when E1 L = Q E2 with Q orthogonal; and it is unchanged when L is replaced by M1 L M2 with M1, M2 in the lattice groups of E1 and E2.", "quantifier": "all bases and all correspondences", "why_tests_cant": "all real matrices", "anchors": [{"file": "structrans/marttrans/lat_cor/dist.py", "symbols": ["Cauchy_dist"]}]}
{"id": "C42", "title": "The vectorised distance equals the scalar distance for every batch size", "statement": "For every list of correspondences of any length, Cauchy_dist_vec returns the list of Cauchy_dist values in order.", "quantifier": "all list lengths (both code paths)", "why_tests_cant": "all batch sizes and contents", "anchors": [{"file": "structrans/marttrans/lat_cor/dist.py", "symbols": ["Cauchy_dist_vec", "Cauchy_dist"]}]}
{"id": "C43", "title": "Ericksen and strain distances are symmetry-invariant and vanish at a perfect match in every supported dimension", "statement": "In dimension 2 and 3: Eric_dist and strain_dist are nonnegative, are 0 when E1 L = Q E2, and are unchanged under the lattice groups of both phases.", "quantifier": "all bases and correspondences in 2D and 3D", "why_tests_cant": "all real matrices", "anchors": [{"file": "structrans/marttrans/lat_cor/dist.py", "symbols": ["Eric_dist", "strain_dist"]}]}
{"id": "C44", "title": "vec_generator enumerates every integer vector in the ball exactly once", "statement": "For every dimension and radius, vec_generator started without a checkpoint (or from zero) yields exactly the integer vectors of length at most maxlen, each once.", "quantifier": "all dimensions and radii", "why_tests_cant": "enumeration completeness", "anchors": [{"file": "structrans/marttrans/lat_cor/main_direct.py", "symbols": ["vec_generator"]}]}
{"id": "C45", "title": "Resuming vec_generator at a checkpoint yields exactly the remaining vectors", "statement": "For every radius, dimension and vector x that the generator yields, the generator resumed at x yields exactly the vectors from x on, in the same order.", "quantifier": "all dimensions, radii and checkpoints", "why_tests_cant": "all resume points", "anchors": [{"file": "structrans/marttrans/lat_cor/main_direct.py", "symbols": ["vec_generator", "lat_cor"]}]}
{"id": "C46", "title": "The search radius never excludes a better correspondence", "statement": "Whenever alpha is a lower bound of the quartic form on unit vectors, every correspondence L with Cauchy distance at most d satisfies |L| <= rmax(d), in dimension 3 and 2; the tensor D built by the code is that quartic form.", "quantifier": "all bases, all L, all d", "why_tests_cant": "inequality over all matrices", "anchors": [{"file": "structrans/marttrans/lat_cor/main_direct.py", "symbols": ["lat_cor", "gamma", "rmax"]}]}
{"id": "C47", "title": "The solution list of the direct search is always the best nsol found so far, up to symmetry and ties", "statement": "After processing any sequence of candidate batches, the solutions are sorted by distance, pairwise symmetry-inequivalent, nonsingular, at least nsol once nsol classes were seen, any excess ties with the nsol-th, and every nonsingular candidate seen is either equivalent to a listed solution or strictly worse than the worst listed one.", "quantifier": "all candidate sequences and batch splits", "why_tests_cant": "invariant over all histories", "anchors": [{"file": "structrans/marttrans/lat_cor/main_direct.py", "symbols": ["add_sol", "update_sol"]}]}
{"id": "C48", "title": "lat_cor_direct always terminates normally", "statement": "For all valid lattices, the direct search initialises and finishes without an exception.", "quantifier": "all lattice pairs and random choices", "why_tests_cant": "termination over all inputs and random streams", "anchors": [{"file": "structrans/marttrans/lat_cor/main_direct.py", "symbols": ["lat_cor"]}]}
{"id": "C49", "title": "The shear tree stays in SL(3,Z) and reaches all of it", "statement": "Every node reached from a root by the children relation differs from it by an integer matrix of determinant one; and every such matrix is reached by some path.", "quantifier": "all paths of all lengths", "why_tests_cant": "unbounded depth", "anchors": [{"file": "structrans/marttrans/lat_cor/slnode.py", "symbols": ["SLNode.generate_children", "SLNode.gobacktoparent", "SLNode.gobacktosibling", "SLNode.gobacktouncle"]}]}
{"id": "C50", "title": "Local minimisation terminates at a local minimum no worse than the start, and its cache is transparent", "statement": "For all bases and starting correspondences, dfs terminates; its result is no farther than the start, and none of its neighbours is closer; with any cache filled by earlier calls for the same problem, the answer is the same as without cache.", "quantifier": "all starting points and call histories", "why_tests_cant": "termination and history independence", "anchors": [{"file": "structrans/marttrans/lat_cor/dfs.py", "symbols": ["dfs"]}, {"file": "structrans/marttrans/lat_cor/slnode.py", "symbols": ["SLNode.steepest_des"]}]}
{"id": "C51", "title": "lat_opt's solution list is sorted, symmetry-free, and holds the nsol best visited nodes with ties", "statement": "After any sequence of visited nodes, distances are ascending and match their matrices, no two solutions are equivalent under the two lattice groups, there are at most nsol of them except for ties with the nsol-th, and every visited node is equivalent to a listed one or no better than the nsol-th.", "quantifier": "all visiting orders", "why_tests_cant": "invariant over all histories", "anchors": [{"file": "structrans/marttrans/lat_cor/lat_opt.py", "symbols": ["update_solutions", "truncate_sols", "ext_sols"]}]}
{"id": "C52", "title": "Merging results of sublattices does not depend on the order in which they arrive", "statement": "For every list of per-sublattice solution lists and every permutation of it, the final list of distances is the same: the nsol smallest (with ties).", "quantifier": "all batches and all arrival orders", "why_tests_cant": "all interleavings of the parallel workers", "anchors": [{"file": "structrans/marttrans/lat_cor/main_hnf.py", "symbols": ["merge_sols", "add_sol", "truncate_sols"]}]}
{"id": "C53", "title": "Every sublattice is solved and merged exactly once for every readiness schedule", "statement": "For every number of HNFs, pool size >= 1 and every sequence of readiness answers under which tasks eventually become ready, the asynchronous loop submits each HNF once, merges each result once, never has more than poolsize tasks pending, and ends.", "quantifier": "all schedules, pool sizes, task counts", "why_tests_cant": "quantifies over schedules", "anchors": [{"file": "structrans/marttrans/lat_cor/main_hnf.py", "symbols": ["lat_cor"]}]}
{"id": "C54", "title": "The sublattice sizes searched are exactly the integers within the volume threshold", "statement": "For every volume ratio r > 0 and threshold, the candidate determinants are exactly the integers k with (1-vol_th) r <= k <= (1+vol_th) r, or round(r) when there is none, and are always positive so that the search can proceed.", "quantifier": "all ratios and thresholds", "why_tests_cant": "all reals", "anchors": [{"file": "structrans/marttrans/lat_cor/main_hnf.py", "symbols": ["lat_cor"]}]}
{"id": "C55", "title": "lat_cor_hnf supports dim = 2 as documented", "statement": "For every pair of 2D lattices the tree search works on 2x2 correspondences and does not raise.", "quantifier": "all 2D inputs", "why_tests_cant": "all inputs", "anchors": [{"file": "structrans/marttrans/lat_cor/slnode.py", "symbols": ["SLNode"]}, {"file": "structrans/marttrans/lat_cor/main_hnf.py", "symbols": ["lat_cor"]}]}
{"id": "C56", "title": "Reported solutions are self-consistent", "statement": "For every solution: F E_A H L = E_M, U is symmetric with U^2 = F^T F, lams are ascending, and cor maps conventional indices consistently: E_A_conv * cor = (E_A H L) C_M.", "quantifier": "all inputs", "why_tests_cant": "identity over all matrices", "anchors": [{"file": "structrans/marttrans/lat_cor/main_hnf.py", "symbols": ["lat_cor"]}, {"file": "structrans/marttrans/lat_cor/main_direct.py", "symbols": ["lat_cor"]}]}
{"id": "C57", "title": "The parallel direct search examines every vector it enumerates", "statement": "For every stream of candidates, batch and slice size, every candidate vector enumerated is taken into account in the final solutions.", "quantifier": "all stream lengths and batch sizes", "why_tests_cant": "all batch boundaries", "anchors": [{"file": "structrans/marttrans/lat_cor/main_direct_para.py", "symbols": ["calc_dist", "__main__"]}]}
{"id": "C58", "title": "LLL returns a basis of the same lattice with the same orientation", "statement": "For every nonsingular base E, LLL(E) never raises; when it returns a plain base this is E W with W an integer matrix of determinant 1, and the starting point lat_opt derives from it is that W. When it returns the pair (base, False) the base is E W with W an integer matrix of determinant 1 or -1.", "quantifier": "all nonsingular bases, any number of iterations", "why_tests_cant": "all real bases and all iteration counts", "anchors": [{"file": "structrans/crystallography/lattice_reduction.py", "symbols": ["LLL", "Gauss_reduction", "swapping", "Gram_Schmidt"]}, {"file": "structrans/marttrans/lat_cor/lat_opt.py", "symbols": ["lat_opt"]}]}
{"id": "C59", "title": "A base returned by LLL is LLL-reduced", "statement": "Whenever the loop stops before its iteration cap, the returned base satisfies the Lovasz condition used by the code and is size-reduced (|mu_ij| <= 1/2).", "quantifier": "all nonsingular bases", "why_tests_cant": "all inputs", "anchors": [{"file": "structrans/crystallography/lattice_reduction.py", "symbols": ["LLL", "Gauss_reduction", "swapping", "projection"]}]}
{"id": "C60", "title": "LLL reports non-convergence, and only then", "statement": "LLL returns a plain base exactly when it converged before the iteration cap, and signals failure otherwise.", "quantifier": "all inputs and iteration counts", "why_tests_cant": "depends on iteration counts", "anchors": [{"file": "structrans/crystallography/lattice_reduction.py", "symbols": ["LLL"]}]}
{"id": "C61", "title": "Batch matrix helpers act matrix by matrix", "statement": "For every list of d x d matrices flattened to rows, mat_dot, mat_T, mat_det and mat_trace return for each row the product, transpose, determinant and trace of the corresponding matrix.", "quantifier": "all dimensions, all list lengths, all entries", "why_tests_cant": "all dimensions", "anchors": [{"file": "structrans/mat_math.py", "symbols": ["mat_dot", "mat_T", "mat_det", "mat_trace"]}]}
{"id": "C62", "title": "Cofactor matrices satisfy A cof(A)^T = det(A) I", "statement": "For every 3x3 matrix A, the cofactor helpers return cof(A) with A cof(A)^T = det(A) I.", "quantifier": "all 3x3 matrices", "why_tests_cant": "identity", "anchors": [{"file": "structrans/mat_math.py", "symbols": ["cofactor"]}, {"file": "structrans/marttrans/twin.py", "symbols": ["_brute_cof"]}]}
{"id": "C63", "title": "Unit cell vertices and bonds form the parallelepiped spanned by the base", "statement": "For every origin and base, vertex returns the 8 (4) corners, the 12 bonds join exactly the pairs of corners that differ by one base vector; UnitCell objects can be built for every Bravais lattice.", "quantifier": "all origins and bases", "why_tests_cant": "all inputs", "anchors": [{"file": "structrans/crystallography/visualization.py", "symbols": ["vertex", "bonds", "UnitCell"]}]}
{"id": "C64", "title": "Stereographic projections stay in the equatorial disc", "statement": "For every nonzero pole p and zone axis z, the projected point lies within distance |z| of the origin, poles p and their mirror images in the equatorial plane project to the same point, and the zone axis itself projects to the origin.", "quantifier": "all poles and axes", "why_tests_cant": "all reals", "anchors": [{"file": "structrans/crystallography/stereogram.py", "symbols": ["stereo_proj", "pole_figure"]}]}
{"id": "C65", "title": "skew returns an n-fold screw operation", "statement": "For all n >= 1, p and axis vectors T for which rotation is defined, skew(n, p, T) = (Q, c) with Q^n = I, Q T = T and n c = p' T with p' = p (mod n).", "quantifier": "all n, p, T", "why_tests_cant": "all integers and axes", "anchors": [{"file": "structrans/crystallography/spacegroup.py", "symbols": ["skew"]}]}
{"id": "C66", "title": "Lattice objects are not affected by later changes to arrays the caller holds", "statement": "For every history of in-place modifications of arrays that the caller passed in or received, base() and the symmetry groups of a Lattice do not change.", "quantifier": "all histories of mutations and queries", "why_tests_cant": "quantifies over histories", "anchors": [{"file": "structrans/crystallography/lattice.py", "symbols": ["Lattice.__init__", "Lattice.base", "Lattice.Laue_group"]}]}
{"id": "C67", "title": "Deprecated aliases behave like the methods they name", "statement": "Each deprecated method returns the same result as its documented replacement for every object.", "quantifier": "all lattices and arguments", "why_tests_cant": "all inputs", "anchors": [{"file": "structrans/crystallography/lattice.py", "symbols": ["Lattice.getlatticegroup", "Lattice.getspeciallatticegroup", "Lattice.getpointgroup", "Lattice.getLauegroup", "Lattice.getbase"]}, {"file": "structrans/crystallography/bravais_lattice.py", "symbols": ["BravaisLattice.toPrimitive", "BravaisLattice.toConventional"]}]}
{"id": "C68", "title": "Float division inside hnfd gives the exact integer quotient for moderately sized entries", "statement": "For all integers a, b with b > 0 and |a|, b small enough (the bound is part of the theorem), floor and ceil of the double-precision quotient a/b equal the exact floor and ceil of a/b, so hnfd run with float division equals hnfd with exact division; for larger entries this fails.", "quantifier": "all integers within the bound", "why_tests_cant": "rounding for all operands", "anchors": [{"file": "structrans/crystallography/hnf.py", "symbols": ["hnfd", "__gcd_cols"]}]}
{"id": "C69", "title": "When the direct search ends normally after one complete pass, its list is globally optimal", "statement": "If the exhaustive search ends and its last pass started from the origin, then among all nonsingular integer matrices, not only those generated, each is equivalent to a listed one or strictly farther than every listed solution.", "quantifier": "all integer matrices, unbounded", "why_tests_cant": "infinitely many candidates", "anchors": [{"file": "structrans/marttrans/lat_cor/main_direct.py", "symbols": ["lat_cor"]}]}
{"id": "C70", "title": "lat_opt ends for all lattices and starts and improves on its start", "statement": "For every pair of lattices and every integer starting matrix lo, the search with restarts ends; its solutions are the best of the visited matrices, all differ from lo by a matrix of determinant one, and the first is at least as close as lo and as a local minimum found on the way.", "quantifier": "all lattices, starts, nsol, iteration limits", "why_tests_cant": "termination for all inputs", "anchors": [{"file": "structrans/marttrans/lat_cor/lat_opt.py", "symbols": ["lat_opt", "bfs"]}]}
{"id": "C71", "title": "setLaue(k) gives the object the rotation group of Bravais lattice type k and keeps U", "statement": "For every object and every k from 1 to 14, setLaue(k) returns a new object with the same U whose group is the rotation group of the crystal system of Bravais lattice k; a MatrixGroup argument is taken as it is; any other argument raises ValueError.", "quantifier": "all objects and arguments", "why_tests_cant": "fourteen lattice types and all other arguments", "anchors": [{"file": "structrans/marttrans/martensite.py", "symbols": ["Martensite.setLaue"]}]}
{"id": "C72", "title": "LLL terminates, within a number of rounds given by the base", "statement": "For every nonsingular base the exchanges of LLL end after finitely many rounds; at most k rounds are made when (3/4)^k times the distortion of the base (||E||^2 ||inv(E)||^2 in two dimensions, ||E||^8 ||inv(E)||^2 / det(E)^2 in three) is less than one. If the distortion is at most 10^12, LLL returns a plain base of the same lattice and orientation that satisfies the Lovasz condition.", "quantifier": "all nonsingular bases and all caps on the number of rounds", "why_tests_cant": "termination is about all inputs; no test bounds the number of rounds", "anchors": [{"file": "structrans/crystallography/lattice_reduction.py", "symbols": ["LLL", "Gauss_reduction", "swapping"]}]}
{"id": "C73", "title": "The first vector of the base returned by LLL is nearly shortest", "statement": "Whenever LLL stops before its iteration cap, no nonzero lattice vector is shorter than the first column of the returned base divided by sqrt(2)^(n-1).", "quantifier": "all nonsingular bases and all nonzero integer combinations of their columns", "why_tests_cant": "quantifies over all vectors of every lattice", "anchors": [{"file": "structrans/crystallography/lattice_reduction.py", "symbols": ["LLL"]}]}
{"id": "C74", "title": "box selects exactly the points inside the box", "statement": "For every list of points and every box with sides along the axes, box returns, in the order of the list, exactly the points that lie in the box enlarged by five per cent away from the origin, and an array of zeros when there are none.", "quantifier": "all point lists and boxes", "why_tests_cant": "all reals", "anchors": [{"file": "structrans/crystallography/visualization.py", "symbols": ["box"]}]}
{"id": "C75", "title": "stereo_proj computes the stereographic projection from the south pole", "statement": "For every zone axis z there is one orthonormal frame of the plane perpendicular to z such that, for every pole p above that plane, stereo_proj(p, z) differs by at most |z|/1000 from the coordinates of the point where the plane meets the line from -z to the point of the sphere of radius |z| in the direction of p.", "quantifier": "all zone axes and poles", "why_tests_cant": "all reals; the frame must serve all poles", "anchors": [{"file": "structrans/crystallography/stereogram.py", "symbols": ["stereo_proj"]}]}
{"id": "C76", "title": "A Bravais lattice is not affected by later changes to arrays the caller holds", "statement": "For every history of in-place modifications of arrays that the caller passed in or received, the conventional base, lattice parameters, index conversions and description of a BravaisLattice do not change.", "quantifier": "all histories of mutations and queries", "why_tests_cant": "quantifies over histories", "anchors": [{"file": "structrans/crystallography/bravais_lattice.py", "symbols": ["BravaisLattice.__init__", "BravaisLattice.conventional_trans", "BravaisLattice.lat_param", "BravaisLattice.to_primitive_Miller"]}]}
{"id": "C77", "title": "A Martensite object is not affected by later changes to arrays the caller holds", "statement": "For every history of in-place modifications of arrays that the caller passed in or received, getU, getvariants, getvariant and isreversible of a Martensite object do not change.", "quantifier": "all histories of mutations and queries", "why_tests_cant": "quantifies over histories", "anchors": [{"file": "structrans/marttrans/martensite.py", "symbols": ["Martensite.setU", "Martensite.getU", "Martensite.getvariants", "Martensite.getvariant"]}]}
{"id": "C78", "title": "A call of lat_cor_hnf returns genuine solutions, best first", "statement": "For every pair of admissible three-dimensional Bravais lattices and every choice of nsol, vol_th, dist, miniter and maxiter, each solution lat_cor_hnf returns is a Hermite normal form h of a size allowed by vol_th and an integer matrix l of determinant 1 for which a deformation F carries the base of the parent sublattice onto the base of the product lattice; the reported correspondence relates the conventional cells under the same F, U is the stretch of F, lams are its eigenvalues in ascending order and d is the chosen distance of F; and the solutions are in ascending order of d.", "quantifier": "all lattices, parameters, options and results of the eigenvalue routine", "why_tests_cant": "composes the whole pipeline over real parameters and unbounded searches", "anchors": [{"file": "structrans/marttrans/lat_cor/main_hnf.py", "symbols": ["lat_cor", "merge_sols"]}, {"file": "structrans/marttrans/lat_cor/lat_opt.py", "symbols": ["lat_opt"]}]}
{"id": "C79", "title": "A call of lat_cor_hnf ends and its first solution is at least as close as a locally optimal correspondence of every sublattice", "statement": "For every pair of admissible three-dimensional Bravais lattices and every choice of options, a call of lat_cor_hnf ends, and for every sublattice of a size within the volume threshold the first solution is at least as close as some correspondence of that sublattice which no elementary shear improves.", "quantifier": "all lattices, parameters, options, results of the eigenvalue routine and both integer divisions of Python", "why_tests_cant": "termination of an unbounded search over real parameters", "anchors": [{"file": "structrans/marttrans/lat_cor/main_hnf.py", "symbols": ["lat_cor"]}, {"file": "structrans/marttrans/lat_cor/lat_opt.py", "symbols": ["lat_opt"]}, {"file": "structrans/marttrans/lat_cor/dfs.py", "symbols": ["dfs"]}]}
{"id": "C80", "title": "reduce_hnfs keeps exactly one representative per symmetry orbit on Python 2 as well", "statement": "For every list of Hermite normal forms and every finite group of unimodular integer matrices, reduce_hnfs run with the integer division of Python 2 returns a sublist in which every input is symmetry-equivalent to some member and no two distinct members are symmetry-equivalent.", "quantifier": "every list of HNFs, every finite unimodular group, every dimension", "why_tests_cant": "all lists, all groups", "anchors": [{"file": "structrans/marttrans/lat_cor/main_hnf.py", "symbols": ["reduce_hnfs"]}, {"file": "structrans/crystallography/hnf.py", "symbols": ["hnfd"]}]}
{"id": "C81", "title": "The bound that limits the direct search is a lower bound of the quartic form", "statement": "Whatever random starting points are drawn, the number alpha from which lat_cor_direct computes its search radius (with or without scipy installed) is at most the quartic form of the two lattices at every unit vector, so that the radius excludes no closer correspondence.", "quantifier": "all pairs of lattices, all random starting points, all results of the external minimiser and matrix inverse", "why_tests_cant": "random restarts: a test sees one sequence of draws", "anchors": [{"file": "structrans/marttrans/lat_cor/quartic_opt.py", "symbols": ["quart_min", "_quartic_roots"]}, {"file": "structrans/marttrans/lat_cor/main_direct.py", "symbols": ["lat_cor"]}]}
{"id": "C82", "title": "The derivatives used to minimise the quartic form are its derivatives", "statement": "The function passed to scipy as the Jacobian is the gradient of the quartic form at every vector and for every tensor, and the matrix inverted by the iteration used without scipy is the derivative of the equations it solves.", "quantifier": "all tensors, all vectors and directions, all dimensions", "why_tests_cant": "derivative at every point of a real vector space", "anchors": [{"file": "structrans/marttrans/lat_cor/quartic_opt.py", "symbols": ["quart_min", "_quartic_roots"]}]}
{"id": "C83", "title": "A call of lat_cor returns genuine solutions, best first, none twice", "statement": "For every pair of Bravais lattices in two or three dimensions, every nsol, vol_th and slice size and whatever the random numbers, scipy's minimiser and the iteration order of sets do: if lat_cor (which is lat_cor_direct) returns a list, it has at least nsol entries in ascending order of distance, entries beyond the nsol-th tie with it, each entry is a deformation carrying a sublattice base of the parent onto the base of the product with the reported correspondence of conventional cells, stretch, ordered eigenvalues and Cauchy distance (orientation preserving in 3D), and no two entries are equivalent under the symmetries of the two lattices.", "quantifier": "all lattice pairs, options, random draws, minimiser results and set orders", "why_tests_cant": "the result depends on random initialisation and on a search in a 4 or 9 dimensional ball; tests compare a few known transformations", "anchors": [{"file": "structrans/marttrans/lat_cor/main_direct.py", "symbols": ["lat_cor"]}, {"file": "structrans/marttrans/lat_cor/__init__.py", "symbols": ["lat_cor"]}]}
{"id": "C84", "title": "A call of lat_cor ends with a list that is globally best", "statement": "Given a correct lower bound of the quartic form, a call of lat_cor ends normally for every sequence of random matrices, and no correspondence outside the returned list, of whatever size of entries, is closer than the listed ones.", "quantifier": "all lattice pairs, options and random draws; all integer matrices as competitors", "why_tests_cant": "global optimality ranges over infinitely many integer matrices, and termination over all random sequences", "anchors": [{"file": "structrans/marttrans/lat_cor/main_direct.py", "symbols": ["lat_cor"]}, {"file": "structrans/marttrans/lat_cor/main_direct.py", "symbols": ["vec_generator"]}]}
{"id": "C85", "title": "The keyword dist of lat_cor chooses the reported distance", "statement": "lat_cor(..., dist='Ericksen') and dist='strain' report (and rank by) the distance named, as lat_cor_hnf does.", "quantifier": "all lattice pairs and the three names", "why_tests_cant": "for lattices that match perfectly all distances agree, so an example test does not tell", "anchors": [{"file": "structrans/marttrans/lat_cor/main_direct.py", "symbols": ["lat_cor"]}]}
{"id": "C86", "title": "iscompound, istypeI and istypeII tell how many two-fold axes relate the variants", "statement": "For every twinnable pair of variants and every call history: iscompound() is true exactly when two half turns, about different axes, map U to V; otherwise the pair has exactly one such axis up to sign and istypeI() and istypeII() are true.", "quantifier": "all pairs of positive definite variants, all eigensolvers, all call histories", "why_tests_cant": "all inputs and histories", "anchors": [{"file": "structrans/marttrans/twin.py", "symbols": ["TwinPair.iscompound", "TwinPair.istypeI", "TwinPair.istypeII"]}]}
{"id": "C87", "title": "XI, XII and the direct cofactor values", "statement": "For every pair that is not compound, with axis e: XI = |U^-1 e| and XII = |U e|; for compound pairs both raise AttributeError. The values of the cofactor conditions are -<U a, cof(U^2 - I) n> for the two twins; exactly these are determined by XI, XII, det(U^2 - I) and e.cof(U^2 - I)e, so they vanish for XI = 1 (XII = 1) if det(U^2 - I) = 0.", "quantifier": "all pairs of positive definite variants, all call histories", "why_tests_cant": "identity over a continuum", "anchors": [{"file": "structrans/marttrans/twin.py", "symbols": ["TwinPair.XI", "TwinPair.XII", "TwinPair.direct_cof"]}]}
{"id": "C88", "title": "TwinPair rejects arguments that are not positive definite", "statement": "TwinPair(Ui, Uj) raises ValueError exactly when one of the two matrices is not symmetric positive definite, and otherwise makes the same object as with skipcheck=True.", "quantifier": "all pairs of 3 x 3 matrices", "why_tests_cant": "all matrices", "anchors": [{"file": "structrans/marttrans/twin.py", "symbols": ["TwinPair.__init__"]}, {"file": "structrans/util/utils.py", "symbols": ["pos_def_sym"]}]}
{"id": "C89", "title": "Every pair of variants related by a half turn has twin parameters", "statement": "For every twinnable pair of variants, of whatever parent symmetry, that is related by a half turn: twinparam() returns two twins and volumefrac() does not raise.", "quantifier": "all pairs of positive definite variants, all call histories", "why_tests_cant": "all inputs", "anchors": [{"file": "structrans/marttrans/twin.py", "symbols": ["TwinPair.twinparam", "TwinPair.volumefrac", "_isvariant"]}]}
{"id": "C90", "title": "lat_cor gets past its random initialisation", "statement": "For every pair of Bravais lattices and every nsol, the random initialisation of lat_cor and of Solver.initialize can end: whatever has been drawn so far, there are further random matrices with which the initial list gets full.", "quantifier": "all lattice pairs, all nsol, all sequences of random matrices", "why_tests_cant": "a test of one lattice pair that ends says nothing about other pairs; not ending cannot be observed by a test at all", "anchors": [{"file": "structrans/marttrans/lat_cor/main_direct.py", "symbols": ["lat_cor"]}, {"file": "structrans/marttrans/lat_cor/solver.py", "symbols": ["Solver.initialize"]}]}
{"id": "C91", "title": "Solver.initialize returns the best of its random starting points", "statement": "For every pair of lattices, every nsol and whatever the random numbers: if Solver.initialize returns, it has drawn max(20, 5 nsol) starting points within 1 of the integer part of E_A^-1 E_M and with determinant within vol_th of 1, and the list it returns has at least nsol entries, is sorted by distance, holds no two equivalent correspondences and has lost none better than the listed ones.", "quantifier": "all lattice pairs, options and random sequences", "why_tests_cant": "random input; all sequences", "anchors": [{"file": "structrans/marttrans/lat_cor/solver.py", "symbols": ["Solver.load_input", "Solver.initialize"]}]}
{"id": "C92", "title": "is_min is true exactly at local minima", "statement": "For every distance function and every 3 x 3 integer matrix, is_min() of a tree node is true exactly when none of the twelve matrices one shear away is closer, which is exactly when steepest_des() finds no way down.", "quantifier": "all distance functions and all matrices", "why_tests_cant": "all integer matrices", "anchors": [{"file": "structrans/marttrans/lat_cor/slnode.py", "symbols": ["SLNode.is_min", "SLNode.steepest_des"]}]}
{"id": "C93", "title": "unique_rows and tuple of mat_math", "statement": "For every integer array, unique_rows returns every distinct row exactly once, in the order of the bytes, together with the number of its first occurrence; tuple(start, end) lists every triple of integers of start..end-1 exactly once, in lexicographic order.", "quantifier": "all arrays, all integer bounds", "why_tests_cant": "all sizes of arrays", "anchors": [{"file": "structrans/mat_math.py", "symbols": ["unique_rows", "tuple"]}]}
{"id": "C94", "title": "Microstructure remembers the stretch and group that were set", "statement": "After any sequence of calls on a Microstructure, getU() returns the matrix described by the last valid setU(...) (an array, or one to four numbers for a cubic, tetragonal, orthorhombic or monoclinic stretch); a wrong number of arguments raises MartensiteError; setLaue(id) makes getLaue() return the Laue group of the Bravais lattice id.", "quantifier": "all call histories and arguments", "why_tests_cant": "all histories", "anchors": [{"file": "structrans/marttrans/Compatibility.py", "symbols": ["Microstructure.setU", "Microstructure.getU", "Microstructure.setLaue", "Microstructure.getLaue"]}]}
{"id": "C95", "title": "The printed report shows the solutions that are returned", "statement": "For every list of solutions, in two or three dimensions and for every nsol and distance name: the report that lat_cor prints has one block per returned solution, in the order of the list, and the numbers read from the block are those of the solution: the columns of the correspondence with the unit vector they go to (two places), the rows of the stretch (six places), the Hermite normal form (lat_cor_hnf), the eigenvalues in their order and the distance (six significant digits), with the name of the distance asked for.", "quantifier": "all lists of solutions, all real entries (also those too long for their column and those printed with an exponent)", "why_tests_cant": "number formatting depends on the magnitude, sign and rounding of every entry; tests look at one output", "anchors": [{"file": "structrans/marttrans/lat_cor/main_direct.py", "symbols": ["_sols_tostr", "lat_cor"]}, {"file": "structrans/marttrans/lat_cor/main_hnf.py", "symbols": ["_sols_tostr", "lat_cor"]}]}
{"id": "C96", "title": "The number of Hermite normal forms is the number of sublattices", "statement": "For every n >= 1 and N >= 1, hnf_from_det(n, N) returns as many matrices as there are sublattices of index n: 1 for N = 1, the sum of the divisors of n for N = 2, the sum of m sigma(m) over the divisors m of n for N = 3, and for N + 1 the sum of m times the number for m in dimension N; hnf_from_diag([d_0, ..., d_(N-1)]) returns the product of the d_i^i.", "quantifier": "every determinant, dimension and diagonal", "why_tests_cant": "a count for all n and N; tests compare a few known values", "anchors": [{"file": "structrans/crystallography/hnf.py", "symbols": ["hnf_from_det", "hnf_from_diag"]}, {"file": "structrans/crystallography/sublattice.py", "symbols": ["hnf_from_det", "hnf_from_diag"]}, {"file": "structrans/util/utils.py", "symbols": ["divisors"]}]}
{"id": "C97", "title": "What habitplanes returns are habit planes", "statement": "For every twin pair in every call history, whenever habitplanes() returns: the list is, for each of the two twins and each of the fractions f and 1 - f, the pair of all habit planes of that laminate: for F = U + f a (x) n, each returned (R, b, m) has |m| = 1, (I + m (x) b)(I + b (x) m) = F^T F and R S = I + b (x) m for a rotation R and S the positive definite square root of F^T F (exact arithmetic).", "quantifier": "all twin pairs, all call histories", "why_tests_cant": "an algebraic claim about all stretch tensors; the wrong answers arise for whole regions of stretches", "anchors": [{"file": "structrans/marttrans/twin.py", "symbols": ["TwinPair.habitplanes", "TwinPair.volumefrac", "_solve_f", "_solve_am"]}]}
{"id": "C98", "title": "Symmetry groups belong to the lattice, not to the base or the unit of length", "statement": "For all bases E1, E2 of the same lattice: Laue_group and point_group of both are the same list, and lattice_group and special_lattice_group of E2 = E1 P are P^-1 M P for those of E1. For every base E and c != 0 the four groups of c E are those of E.", "quantifier": "all pairs of bases of a lattice in two and three dimensions, all scale factors", "why_tests_cant": "infinitely many bases of each lattice; the counterexample needs a base skewed by 5e-8", "anchors": [{"file": "structrans/crystallography/lattice.py", "symbols": ["Lattice.Laue_group", "Lattice.point_group", "Lattice.lattice_group", "Lattice.special_lattice_group", "Lattice.inpointgroup", "Lattice.__eq__"]}]}
{"id": "C99", "title": "Reducing a reduced base changes nothing", "statement": "For every base E of a lattice for which LLL(E) converges to B: LLL(B) = B. In particular a base that satisfies the condition of Lovasz and whose coefficients are at most 1/2 is returned as it is.", "quantifier": "all bases in two and three dimensions", "why_tests_cant": "infinitely many bases; coefficients of exactly 1/2 depend on how ties are rounded; the counterexample needs a base whose third vector is reduced in the wrong order", "anchors": [{"file": "structrans/crystallography/lattice_reduction.py", "symbols": ["LLL", "Gauss_reduction", "swapping"]}]}
{"id": "C100", "title": "maxiter is the maximum depth of lat_opt, 3 unless given", "statement": "For all lattices and options: every correspondence lat_opt returns is at most maxiter elementary shears away from a correspondence that no elementary shear improves; leaving maxiter out is the same as passing 3.", "quantifier": "all pairs of lattices, distances, numbers of solutions and values of maxiter and miniter", "why_tests_cant": "infinitely many lattices; a test sees the depth only through the solutions found", "anchors": [{"file": "structrans/marttrans/lat_cor/lat_opt.py", "symbols": ["lat_opt", "maxiter_by_nsol", "bfs"]}]}
{"id": "C101", "title": "LLL does not depend on the orientation of the axes or the unit of length", "statement": "For every base E and every rotation, reflection or scaling S of the space, LLL(S E) is S LLL(E), and lat_opt starts from the same integer correspondence.", "quantifier": "all bases in dimension 2 and 3 and all similarities of the space", "why_tests_cant": "infinitely many bases and rotations", "anchors": [{"file": "structrans/crystallography/lattice_reduction.py", "symbols": ["LLL", "Gram_Schmidt", "Gauss_reduction", "projection", "swapping"]}, {"file": "structrans/marttrans/lat_cor/lat_opt.py", "symbols": ["lat_opt"]}]}
{"id": "C102", "title": "The unit of length does not matter", "statement": "For all lattice types and parameters, requests and c > 0: multiplying the lengths of both lattices by c changes nothing in the outcome of lat_cor, neither the solutions, their distances, stretches and correspondences, nor an exception.", "quantifier": "all lattice types and parameters, all requests, all factors c > 0, both searches", "why_tests_cant": "infinitely many parameters and factors", "anchors": [{"file": "structrans/marttrans/lat_cor/main_hnf.py", "symbols": ["lat_cor"]}, {"file": "structrans/marttrans/lat_cor/main_direct.py", "symbols": ["lat_cor"]}, {"file": "structrans/marttrans/lat_cor/lat_opt.py", "symbols": ["lat_opt"]}, {"file": "structrans/crystallography/bravais_lattice.py", "symbols": ["BravaisLattice"]}]}
{"id": "C103", "title": "When maxiter is large enough, and how to see it", "statement": "For all lattices and options: if lat_opt gives the same solutions with maxiter = n and n + 1 (n not below miniter), it gives them with every larger maxiter; and from some maxiter on the solutions do stay the same.", "quantifier": "all pairs of lattices, distances, numbers of solutions, minimum depths and values of maxiter", "why_tests_cant": "no test can try every larger maxiter", "anchors": [{"file": "structrans/marttrans/lat_cor/lat_opt.py", "symbols": ["lat_opt", "update_solutions", "bfs"]}]}
{"id": "C104", "title": "Asking for more never loses a solution", "statement": "Raising nsol or maxiter (or both, the other options kept) never makes an answer worse: for every position of the smaller request of lat_opt the larger one has a solution there that is at least as close; and the first solution of lat_cor is at least as close if nsol, maxiter and vol_th are not lowered.", "quantifier": "all pairs of lattices, distances, minimum depths, pairs of numbers of solutions, of maximum depths and of volume thresholds", "why_tests_cant": "the two searches truncate their lists at different lengths at every insertion; no test covers every history", "anchors": [{"file": "structrans/marttrans/lat_cor/lat_opt.py", "symbols": ["lat_opt", "update_solutions", "bfs"]}, {"file": "structrans/marttrans/lat_cor/main_hnf.py", "symbols": ["lat_cor", "merge_sols"]}]}
{"id": "C105", "title": "Any variant may be taken as the stretch tensor", "statement": "The result does not depend on which variant the user typed in: for every variant V returned by getvariants(), setU(V) is again reversible and getvariants() of it returns the same variants, with V first.", "quantifier": "all stretch tensors, symmetry groups of the parent phase and variants", "why_tests_cant": "the Laue group of the rotated stretch is recomputed by tolerance tests on other numbers and from tables with a fixed axis; tests cover a few stretches", "anchors": [{"file": "structrans/marttrans/martensite.py", "symbols": ["setU", "isreversible", "getvariants"]}, {"file": "structrans/crystallography/lattice.py", "symbols": ["Laue_group", "inpointgroup"]}]}
{"id": "C106", "title": "A lattice compared with itself is a perfect match", "statement": "lat_cor_hnf(id, p, id, p) lists first a solution with distance 0, stretch tensor I and eigenvalues 1, for every valid lattice and with the default options; and in any run a solution has distance 0 exactly when its stretch tensor is the identity.", "quantifier": "every valid lattice and every option; every solution of every run", "why_tests_cant": "The search is a local one and starts from the reduced base of the parent; on the lattices one would try in a test (cubic, tetragonal) it starts at the perfect match.  That it is stuck elsewhere for other cells shows only on particular parameters.", "anchors": [{"file": "structrans/marttrans/lat_cor/main_hnf.py", "symbols": ["lat_cor"]}, {"file": "structrans/marttrans/lat_cor/lat_opt.py", "symbols": ["lat_opt"]}, {"file": "structrans/crystallography/lattice_reduction.py", "symbols": ["LLL"]}]}
{"id": "C107", "title": "inlatticegroup decides membership in the lattice group and agrees with inpointgroup", "statement": "For every lattice with base E and every square matrix M of its dimension, inlatticegroup(M) answers, and answers True exactly when M is an integer matrix and E M E^-1 is an isometry; for every isometry Q, inpointgroup(Q) and inlatticegroup(E^-1 Q E) give the same answer.", "quantifier": "every 2D/3D basis, every real square matrix M, every isometry Q", "why_tests_cant": "two tests written independently must agree on a continuum of matrices and bases", "anchors": [{"file": "structrans/crystallography/lattice.py", "symbols": ["Lattice.inlatticegroup", "Lattice.inpointgroup", "_in_O3"]}]}
{"id": "C108", "title": "Equivalent correspondences are variants of one martensite", "statement": "Every stretch tensor 'u' returned by lat_cor_hnf or lat_cor is accepted by Martensite.setU. If two correspondences between the same lattices are related by symmetries of the two lattices, their stretches are related by the symmetry of the parent and have the same principal stretches 'lams'. With the Laue group of the parent, getvariants lists exactly the stretches of the correspondences equivalent to the one found.", "quantifier": "all pairs of 3D Bravais lattices and parameters, all runs, all solutions, all symmetries", "why_tests_cant": "relates two independently computed things, the symmetries of a search result and the orbit of a tensor, over all lattices and all results of a search", "anchors": [{"file": "structrans/marttrans/lat_cor/main_hnf.py", "symbols": ["lat_cor"]}, {"file": "structrans/marttrans/lat_cor/main_direct.py", "symbols": ["lat_cor"]}, {"file": "structrans/marttrans/martensite.py", "symbols": ["Martensite.setU", "Martensite.getvariants"]}, {"file": "structrans/crystallography/lattice.py", "symbols": ["Lattice.Laue_group"]}]}
{"id": "C109", "title": "Without scipy, the minimisation stops at a critical point of the form on the unit sphere", "statement": "Each of the attempts by which lat_cor_direct computes its bound when scipy is not installed starts from the normalised random vector, follows the damped Newton iteration for the critical points of the quartic form on unit vectors for at most 1000 steps, stops at the first point where the equations hold to 1e-4, where a step changes them by at most one thousandth, or where a coordinate reaches 1e20, and ends at a vector of length one at which the form is stationary along the sphere, up to 1e-4.", "quantifier": "all tensors, starting vectors and matrix inverses, all dimensions", "why_tests_cant": "random starting points and up to 1000 steps: a test sees a few trajectories", "anchors": [{"file": "structrans/marttrans/lat_cor/quartic_opt.py", "symbols": ["quart_min", "_quartic_roots"]}]}
{"id": "C110", "title": "Rotating both variants rotates the twin, exchanging them changes nothing", "statement": "Let U and V be two symmetry-related variants that form a twin pair (middle eigenvalue 1, difference above the tolerance) and whose half-turn axes are clearly separated. If both are rotated by the same orthogonal matrix Q and the rotated variants still differ by more than the tolerance, the TwinPair of the rotated variants gives the same answers to istwinnable(), iscompound(), istypeI(), istypeII(), XI() and XII(), and its axes are the rotated axes, up to sign and order. The TwinPair of (V, U) gives the same answers as that of (U, V), with the same axes up to sign and order, and, when isconventional() is asked for the first time without a group, the same answer to that too.", "quantifier": "every positive definite pair, every orthogonal matrix, every eigen solver output that is a valid decomposition, both numpy branches, every history of earlier calls on either object", "why_tests_cant": "The claim compares two objects over all pairs, rotations and call histories; the eigenvectors of the two objects are unrelated outputs of the solver, and a test sees one solver.", "anchors": [{"file": "structrans/marttrans/twin.py", "symbols": ["TwinPair.ax", "TwinPair.iscompound", "TwinPair.istypeI", "TwinPair.istypeII", "TwinPair.XI", "TwinPair.XII", "TwinPair.istwinnable", "TwinPair.isconventional"]}]}
{"id": "C111", "title": "hnfd is exact on machine integers within a stated bound, and silently wrong beyond", "statement": "On arrays of 64-bit integers, whose operations wrap around silently, and with quotients in double precision, hnfd(M) returns H in Hermite normal form and unimodular L with M = H L for every full-rank 3x3 matrix with entries up to 281 and every full-rank 2x2 matrix with entries up to 2^26; where numpy's default integer has 32 bits the bounds are 22 and 2^15 - 1. Without a bound the claim fails: a 2x2 matrix with entries up to 2^32 gives the normal form of a different lattice, without an error.", "quantifier": "all full-rank integer matrices of the given size within the bound", "why_tests_cant": "the intermediate entries are products of cofactors of the Euclidean algorithm; the worst case over all matrices cannot be found by trying some", "anchors": [{"file": "structrans/crystallography/hnf.py", "symbols": ["hnfd", "__gcd_cols", "__add_col", "__nonneg_row"]}]}
{"id": "C112", "title": "The correspondences do not depend on how the two lattices are oriented", "statement": "For all bases E1, E2 and all orthogonal Q1, Q2, lat_opt(Q1 E1, Q2 E2) with the same options returns the same correspondences with the same distances in the same order as lat_opt(E1, E2), or raises the same exception. Of the two symmetry groups the search uses only which matrices they contain.", "quantifier": "all pairs of three-dimensional bases, all orthogonal matrices, all options and distances", "why_tests_cant": "a continuum of orientations; the counterexample needs a lattice turned out of the axes of the symmetry tables", "anchors": [{"file": "structrans/marttrans/lat_cor/lat_opt.py", "symbols": ["lat_opt"]}, {"file": "structrans/crystallography/lattice.py", "symbols": ["Lattice.Laue_group", "Lattice.special_lattice_group"]}]}
{"id": "C113", "title": "In double precision the sublattice sizes searched are those within the volume threshold", "statement": "When lat_cor_hnf computes the sizes from the volume ratio r and vol_th in double precision, it searches exactly the integers n with (1 - vol_th) r <= n <= (1 + vol_th) r, or the nearest integer if there is none; rounding changes nothing.", "quantifier": "all doubles r between 2^-100 and 2^50 and all doubles vol_th with 0 <= vol_th < 1", "why_tests_cant": "rounding goes wrong for a few values among 2^64; the examples one tries come out right", "anchors": [{"file": "structrans/marttrans/lat_cor/main_hnf.py", "symbols": ["lat_cor"]}]}
{"id": "C114", "title": "Every orientation can be entered as Euler angles and as axis and angle", "statement": "For every rotation matrix Q: with every order of three axis letters in which no axis follows itself there are angles for which Euler returns Q, in degrees and in radians, and there are an angle and an axis for which rotation returns Q. For every other order of letters there is a rotation matrix that Euler returns for no angles.", "quantifier": "all rotation matrices, all orders of axis letters, both units", "why_tests_cant": "a continuum of rotation matrices", "anchors": [{"file": "structrans/util/utils.py", "symbols": ["Euler", "rotation"]}]}
{"id": "C115", "title": "Twinning respects the symmetry of the variants", "statement": "For a martensite object whose variants are listed without error: applying an element of its symmetry group to both variants of a pair gives two of the variants again, and istwinnable has the same answer for both pairs. If for no pair of variants the middle eigenvalue is at the edge of the tolerance (where exchanging a pair changes the answer, C34), then the table of twins of a TwinSystem made of the variants is mapped to itself by every element of the symmetry group, and every variant takes part in the same number of twins k: twice the number of twins is k times the number of variants.", "quantifier": "all martensite objects with a positive definite stretch, all symmetry groups of rotations, all elements of the group, all pairs of variants, all earlier uses of the objects", "why_tests_cant": "a continuum of stretches and every symmetry group", "anchors": [{"file": "structrans/marttrans/twin.py", "symbols": ["TwinPair.istwinnable", "TwinSystem.TwinTable", "TwinSystem.__init__"]}, {"file": "structrans/marttrans/martensite.py", "symbols": ["Martensite.getvariants"]}]}
{"id": "C116", "title": "The number of inequivalent sublattices", "statement": "reduce_hnfs keeps as many sublattices as there are classes under the symmetry group, so their number is given by Burnside's count: for the sublattices of size n listed by hnf_from_det in two or three dimensions, and for every list of sublattices that the symmetries permute, the number kept times the order of the group is the number of pairs of a symmetry and a listed sublattice that it maps onto itself. The number kept does not depend on the order or the multiplicity of the sublattices or of the symmetries.", "quantifier": "all finite groups of integer matrices, all sizes of sublattices, all lists of sublattices and all their orders", "why_tests_cant": "infinitely many sizes and groups, all permutations of the lists", "anchors": [{"file": "structrans/marttrans/lat_cor/main_hnf.py", "symbols": ["reduce_hnfs"]}, {"file": "structrans/crystallography/hnf.py", "symbols": ["hnf_from_det", "hnfd"]}]}
{"id": "C117", "title": "The same lattice requested in different ways", "statement": "A Bravais type and its parameters only describe a cell. Two requests with the same centring, edges and angles give the same conventional_trans and congruent bases; if neither is trigonal and no monoclinic, triclinic or oblique angle exceeds 180 degrees they give exactly the same base. The known coincidences between types with different cells hold for every size: hexagonal and C-centred orthorhombic with b = sqrt(3) a, trigonal at 60 degrees and face-centred cubic, trigonal at arccos(-1/3) and body-centred cubic describe the same points; body-centred tetragonal with c = sqrt(2) a and face-centred cubic, C-centred (face-centred) orthorhombic with a = b and primitive (body-centred) tetragonal differ by a rotation; the same for the planar types. Two BravaisLattice objects with the same points compare equal.", "quantifier": "all pairs of Bravais types in two and three dimensions and all admissible real parameters", "why_tests_cant": "a continuum of parameters for every pair of types", "anchors": [{"file": "structrans/crystallography/bravais_lattice.py", "symbols": ["BravaisLattice", "__primitiveBase2D__", "__primitiveBase3D__", "getConventionalBase", "getConventionalTrans"]}, {"file": "structrans/crystallography/lattice.py", "symbols": ["Lattice", "__eq__"]}]}
{"id": "C118", "title": "The two twins of a pair are simple shears of one amount and there are no others", "statement": "Every solution (Q, a, n) of the twinning equation Q V = U + a (x) n between two symmetry-related variants is a simple shear of the first variant: Q V U^-1 = I + a (x) s with a orthogonal to s, and its amount |a||s| is fixed by the two variants, so both twins of a pair shear by the same amount. The two twins that TwinPair.twinparam returns are, before rounding, two different solutions, and no other solution exists: any rotation, a and n solving the equation have the same rotation and the same a (x) n as one of the two returned ones.", "quantifier": "all pairs of positive definite variants whose axes are resolved by the tolerances, all eigenvector routines, all histories of the TwinPair object", "why_tests_cant": "a continuum of matrices, and the absence of a further solution is a statement about all rotations and vectors", "anchors": [{"file": "structrans/marttrans/twin.py", "symbols": ["TwinPair", "twinparam", "_solvetwin"]}]}
{"id": "C119", "title": "Sublattices of sublattices", "statement": "Taking a sublattice of a sublattice stays inside what hnf_from_det lists, and nothing more is needed: for all sizes m, n and dimensions, hnfd of the product H1 H2 of a listed form of size m and one of size n is a listed form of size m n; every listed form of size m n arises in this way for any such factorisation of its size; if m and n have no common factor it arises from exactly one pair, so the numbers of forms multiply.", "quantifier": "all dimensions, all pairs of positive sizes, all Hermite normal forms of these sizes", "why_tests_cant": "infinitely many sizes and dimensions; the lists grow too fast to enumerate", "anchors": [{"file": "structrans/crystallography/hnf.py", "symbols": ["hnf_from_det", "hnfd"]}]}
{"id": "C120", "title": "mat_eig lists the eigenvalues of each matrix", "statement": "mat_eig applied to an array of square matrices returns one row per matrix, in the same order, holding the real parts of the eigenvalues of that matrix, whatever memory the result array was allocated in; rows that are not square matrices are rejected with ValueError.", "quantifier": "all dimensions, all numbers of matrices, all entries, all eigenvalue routines, all contents of uninitialised memory", "why_tests_cant": "arrays of any length and dimension and arbitrary previous memory content", "anchors": [{"file": "structrans/mat_math.py", "symbols": ["mat_eig"]}]}
{"id": "C121", "title": "A twin's volume fraction is a property of the twin, not of how it is presented", "statement": "The compatible volume fraction computed for a twin does not change when both variants and the twin's shear and normal are turned by one orthogonal matrix, when the signs of shear and normal are both changed, or when the other variant is taken first. Hence TwinPair objects built from a pair and from its image under any symmetry operation of the cubic axes report the same two twins, turned, and the same two volume fractions, in one of the two orders, whatever was called on the objects before; and volumefrac answers whenever twinparam does.", "quantifier": "all positive definite U and V that are variants of each other, all orthogonal matrices (all 48 signed permutations for the objects), all call histories of both objects, all eigensolvers", "why_tests_cant": "a test compares a few pairs; the claim is about every pair, every symmetry operation and every history, and depends on rounding commuting with the operation", "anchors": [{"file": "structrans/marttrans/twin.py", "symbols": ["TwinPair", "twinparam", "volumefrac", "_solve_f", "_solvetwin"]}]}
{"id": "C122", "title": "Cofactor conditions decide the admissible volume fractions", "statement": "For a TwinPair of two variants with a single two-fold axis e, XI and XII together with det(U^2 - I) and e.cof(U^2 - I)e determine, for each of the two twins and every volume fraction f, the determinant det(F^T F - I) of the laminate F = U + f a (x) n, which must vanish for the austenite to fit. If the middle eigenvalue of U is 1 with fixed direction v, then XI = 1 makes the twin with normal e compatible at every f, and compatibility at a single 0 < f < 1 forces XI = 1 or e orthogonal to v; the same holds for XII and the twin sheared along U e. For such a U volumefrac reports only 0 or 1 (0 exactly when the entry of direct_cof is below half the tolerance), so iscompatible is always True.", "quantifier": "all pairs of distinct variants with a single axis, all histories of method calls, all solutions of the twinning equation, all volume fractions f", "why_tests_cant": "The statement is about every volume fraction and every solution of the twinning equation; a unit test evaluates a few fractions of a few alloys, and the condition XI = 1 is met by no alloy exactly.", "anchors": [{"file": "structrans/marttrans/twin.py", "symbols": ["TwinPair", "XI", "XII", "volumefrac", "_solve_f", "direct_cof"]}]}
{"id": "C123", "title": "The direct search is never worse than the search over sublattices", "statement": "For two three-dimensional lattices whose symmetries the tolerances resolve, a list that lat_cor returns within the first turn of its search loop is never worse than what lat_cor_hnf finds with the same Cauchy distance: each solution of lat_cor_hnf is in the list, up to symmetries of the two lattices and with the same distance, or the list holds at least nsol solutions that are all closer; so its first distance is at most every distance of lat_cor_hnf. If the product lattice is, up to an isometry, a sublattice of the parent, the list starts with distance zero, a match that lat_cor_hnf can miss (C106).", "quantifier": "all pairs of Bravais lattices and parameters, all requests (nsol, slice size, volume threshold up to 1, maxiter, miniter), all random draws, all correct eigenvalue routines, all set orders and all deques of lat_cor_hnf", "why_tests_cant": "Comparing the two functions on examples says nothing about the next pair of lattices: one explores a ball of integer matrices, the other a family of sublattices with a local search in each, and the comparison is about solutions that were not found.", "anchors": [{"file": "structrans/marttrans/lat_cor/main_direct.py", "symbols": ["lat_cor"]}, {"file": "structrans/marttrans/lat_cor/main_hnf.py", "symbols": ["lat_cor"]}]}
{"id": "C124", "title": "vol_th bounds the volume change of the reported correspondences", "statement": "For every pair of lattices and every request, the product J of the principal stretches reported with a solution is the factor by which the volume per lattice point changes (J times the size of the sublattice is the ratio of the volumes per lattice point of product and parent), and |J - 1| is at most vol_th whenever some sublattice size allows it; lat_cor_hnf and lat_cor alike.", "quantifier": "all Bravais lattice types and parameters, all requests, all random draws and all correct eigenvalue routines", "why_tests_cant": "A statement about every solution of every call; on the usual examples the volume change is far below the threshold.", "anchors": [{"file": "structrans/marttrans/lat_cor/main_hnf.py", "symbols": ["lat_cor"]}, {"file": "structrans/marttrans/lat_cor/main_direct.py", "symbols": ["lat_cor"]}]}
{"id": "C125", "title": "The symmetry operations of a lattice have order 1, 2, 3, 4 or 6 and their number divides 24", "statement": "For every lattice in two or three dimensions, every element of the Laue group and of the point group that is returned has order 1, 2, 3, 4 or 6 (the crystallographic restriction); in space the number of rotations divides 24 and the point group has twice as many elements, in the plane the number of rotations divides 12 and the point group's order divides 24.", "quantifier": "all invertible 2 x 2 and 3 x 3 bases", "why_tests_cant": "Counting on examples cannot exclude a base for which the tolerance admits a set of rotations that is not a group; one such base is exhibited.", "anchors": [{"file": "structrans/crystallography/lattice.py", "symbols": ["Lattice.Laue_group", "Lattice.point_group"]}, {"file": "structrans/crystallography/matrix_group.py", "symbols": ["CUBIC_LAUE_GROUP", "HEX_LAUE_GROUP"]}]}
{"id": "C126", "title": "A Bravais lattice's cell has the textbook volume and handedness", "statement": "For every Bravais lattice type and all admissible parameters, the conventional cell has volume abc sqrt(1 + 2 cos alpha cos beta cos gamma - cos^2 alpha - cos^2 beta - cos^2 gamma) (in the plane, area ab sqrt(1 - cos^2 gamma)), the primitive base returned by base() spans that volume divided by the number of lattice points per conventional cell, and the base is right-handed whenever the monoclinic beta, the triclinic or the oblique gamma is below 180 degrees; beyond, left-handed bases occur.", "quantifier": "all 14 + 5 lattice types and all admissible parameters", "why_tests_cant": "Infinitely many parameters; the volume ratio of two lattices decides which sublattices are searched, and the sign of the determinant is invisible in edge lengths and angles.", "anchors": [{"file": "structrans/crystallography/bravais_lattice.py", "symbols": ["BravaisLattice", "__primitiveBase3D__", "__primitiveBase2D__"]}]}
{"id": "C127", "title": "The compatibility test does not depend on the frame of reference or on the variant", "statement": "For all invertible 3 x 3 arrays A and B: isCompatible gives the same answer (or error) when a rotation is applied after A, another one after B and a third one before both; hence all symmetry-related variants of a stretch give the same answer against the identity. Exchanging A and B does not change the answer.", "quantifier": "all invertible A, B, all orthogonal matrices, all correct eigenvalue routines", "why_tests_cant": "All rotations and all pairs of matrices; a test can only compare a few.", "anchors": [{"file": "structrans/marttrans/Compatibility.py", "symbols": ["isCompatible"]}]}
{"id": "C128", "title": "The three rank-one solvers give the same pairs, and the pairs turn with the frame", "statement": "For every symmetric C with eigenvalues 0 < l1 <= 1 <= l3, l1 < l3 and middle eigenvalue one: solve_rank1, AM_Solver and the twin module's solver return the same pairs (b, m), up to order and sign, whatever eigenvector basis the eigenvalue routine returns to each; and for every orthogonal Q the pairs returned for Q C Q^T are the pairs (Q b, Q m) of those returned for C.", "quantifier": "all symmetric matrices with middle eigenvalue one, all orthogonal matrices, all correct eigenvalue routines", "why_tests_cant": "A continuum of matrices and rotations, and every choice of eigenvectors, ordering and sign in the eigenvalue routine.", "anchors": [{"file": "structrans/util/utils.py", "symbols": ["solve_rank1"]}, {"file": "structrans/marttrans/Compatibility.py", "symbols": ["AM_Solver"]}, {"file": "structrans/marttrans/twin.py", "symbols": ["_solve_am"]}]}
{"id": "C129", "title": "A uniform expansion of both variants does not change the twin", "statement": "For all twinned variants U, V and every k > 0, the TwinPair of (k U, k V) answers like the TwinPair of (U, V): twinnable, the same two-fold axes up to sign and order, the same answers of iscompound, istypeI and istypeII; X_I is divided by k and X_II is multiplied by k (or both raise for both objects), after any calls of the methods of either object.", "quantifier": "all pairs of symmetry-related stretches with middle eigenvalue one, all k > 0, all call histories, all correct eigenvalue routines", "why_tests_cant": "A continuum of stretches and factors; the tolerances of the code are absolute, so the claim depends on the size of the entries.", "anchors": [{"file": "structrans/marttrans/twin.py", "symbols": ["TwinPair.istwinnable", "TwinPair.ax", "TwinPair.iscompound", "TwinPair.XI", "TwinPair.XII"]}]}
{"id": "C130", "title": "Axis and angle identify a rotation, and the axis turns with the frame", "statement": "For all calls of rotation(angle, axis, unit) that return a matrix (that is, all axes but zero and those along -e1): two calls return the same matrix exactly when both angles are whole turns, or the axes have the same direction and the angles differ by whole turns, or the axes are opposite and the angles are opposite up to whole turns. The length of the axis does not matter. The matrix for the axis Q v is Q M Q^T for every rotation Q. Reversing the angle or the axis gives the inverse. The trace is 1 + 2 cos(angle).", "quantifier": "all angles in degrees or radians, all axes, all rotation matrices", "why_tests_cant": "A continuum of axes and angles; an if-and-only-if between them cannot be sampled.", "anchors": [{"file": "structrans/util/utils.py", "symbols": ["rotation"]}]}
{"id": "C131", "title": "How many variants a stretch has", "statement": "For every reversible stretch U the number of variants times the number of elements of the Laue group that leave U unchanged is the order of the group. A symmetric stretch of a cubic parent has 1, 3, 4, 6, 12 or 24 variants, never 2 or 8.", "quantifier": "all stretches, all rotation groups, all call histories; all symmetric stretches for the cubic group", "why_tests_cant": "The count must be right for a continuum of stretches; the excluded numbers 2 and 8 divide the group order, so no divisibility check rules them out.", "anchors": [{"file": "structrans/marttrans/martensite.py", "symbols": ["Martensite.getvariants"]}]}
{"id": "C132", "title": "Orientation relationships compose and respect zone axes", "statement": "For all invertible correspondence matrices L1, L2 and every argument (one index, a list of indices, or one that is refused), direc_trans(L2, direc_trans(L1, x)) = direc_trans(L1.L2, x), and the same for plane_trans. The identity correspondence changes nothing. Different indices never go to the same index. For directions u, v with images u', v', the plane u x v goes to det(L) (u' x v'): the plane through two directions goes to the plane through their images.", "quantifier": "all invertible 2x2 and 3x3 correspondence matrices, all index arguments; zone axes in three dimensions", "why_tests_cant": "A continuum of matrices and indices, and all lengths of lists; samples cannot settle an identity in all of them.", "anchors": [{"file": "structrans/marttrans/orientation_relationship.py", "symbols": ["direc_trans", "plane_trans"]}]}
{"id": "C133", "title": "Integer indices under an orientation relationship", "statement": "For all integer correspondence matrices L: plane_trans(L, p) has integer indices for every integer p. When det L is not zero, direc_trans(L, d) has integer indices for every integer d exactly when det L is 1 or -1.", "quantifier": "all 2x2 and 3x3 integer matrices, all integer indices", "why_tests_cant": "Infinitely many integer matrices and indices; an if-and-only-if between them cannot be sampled.", "anchors": [{"file": "structrans/marttrans/orientation_relationship.py", "symbols": ["direc_trans", "plane_trans"]}]}
