{"id": "C01", "title": "overlap is the Hilbert-space inner product", "statement": "a.overlap(b) equals the sum over all basis configurations s of <s|a> * conj(<s|b>), where <s|a> is the amplitude a.recombine() reports; it is therefore the complex conjugate of a.full_overlap(b), conjugate-symmetric in its arguments, and a.norm() is the sum of squared moduli. Chains of different length are rejected.", "quantifier": "all pairs of finite MPS with equal length and equal physical dimensions, all bond-dimension profiles, all entries", "why_tests_cant": "the claim relates a transfer-matrix contraction to an exponentially large sum for every length and bond profile; tests only compare absolute values on random chains of a couple of sizes", "anchors": ["xmps/fMPS.py:fMPS.overlap", "xmps/fMPS.py:fMPS.full_overlap", "xmps/fMPS.py:fMPS.norm"]}
{"id": "C02", "title": "recombine computes the matrix-product amplitudes", "statement": "m.recombine() has one entry per configuration of m.L sites with m.d levels, and the entry at (s1..sL) is the sum over all internal bond indices of the product of the tensor entries A_k[s_k, b_{k-1}, b_k], whatever order the matrix products are associated in.", "quantifier": "all chains with trivial outer bonds, all lengths, bond profiles and entries", "why_tests_cant": "unbounded in length and bond dimension; associativity of the reduction has to hold for every chain", "anchors": ["xmps/fMPS.py:fMPS.recombine"]}
{"id": "C03", "title": "add represents the sum of two states", "statement": "a.add(b).recombine() = a.recombine() + b.recombine() for every pair of chains with at least two sites; for a single site the method concatenates along the right bond instead and the result is not the sum.", "quantifier": "all pairs of chains of equal length, any bond dimensions", "why_tests_cant": "block-diagonal bookkeeping has to work for every combination of bond dimensions and every length, the boundary case L=1 is outside what the tests touch", "anchors": ["xmps/fMPS.py:fMPS.add"]}
{"id": "C04", "title": "scalar multiplication scales the state", "statement": "m.mul(c) multiplies every amplitude by exactly c; the operators m*c, c*m multiply every amplitude by c to the power of the number of sites.", "quantifier": "all chains with at least one site and all scalars", "why_tests_cant": "holds for all scalars and lengths; a test can only sample", "anchors": ["xmps/fMPS.py:fMPS.mul", "xmps/fMPS.py:fMPS.__mul__", "xmps/fMPS.py:fMPS.__rmul__", "xmps/fMPS.py:fMPS.__truediv__"]}
{"id": "C05", "title": "apply acts as the one-site operator", "statement": "m.apply((op, k)) returns a new MPS whose amplitudes are those of the operator acting with op on site k and with the identity elsewhere, and leaves m itself unchanged.", "quantifier": "all chains, all operators (square or not), all sites", "why_tests_cant": "every site, length and operator; also a frame condition on the original object", "anchors": ["xmps/fMPS.py:fMPS.apply"]}
{"id": "C06", "title": "left_orthogonalise: isometric tensors, same state", "statement": "After m.left_orthogonalise() every tensor is a left isometry and the old amplitudes are the new ones times the reported norm_, the centre is recorded as m.L. For a partial range [fr,to) only the tensors in the range become isometries, the one after it absorbs the remainder and the state is unchanged.", "quantifier": "all chains, all ranges, any QR routine that returns a correct economic factorisation", "why_tests_cant": "must hold for every factorisation the backend may return (phases, rank deficiency) and every range", "anchors": ["xmps/fMPS.py:fMPS.left_orthogonalise", "xmps/peps_tools.py:group_legs", "xmps/peps_tools.py:ungroup_legs"]}
{"id": "C07", "title": "right_orthogonalise: isometric tensors, same state", "statement": "After m.right_orthogonalise() every tensor is a right isometry and the old amplitudes are the new ones times the reported norm_, centre recorded as 0; the partial range version changes only the range and its left neighbour and keeps the state.", "quantifier": "all chains, all ranges, any RQ routine that returns a correct economic factorisation", "why_tests_cant": "same as C06: depends on all backend answers and all ranges", "anchors": ["xmps/fMPS.py:fMPS.right_orthogonalise"]}
{"id": "C08", "title": "mixed_orthogonalise brings any chain to mixed form around the requested site", "statement": "After m.mixed_orthogonalise(k): tensors left of k are left isometries, tensors right of k right isometries, the recorded centre is k, the centre tensor has unit Frobenius norm; for k>0 the old amplitudes are norm_ times the new ones. For k=0 the overall scale of the state is lost.", "quantifier": "all chains, all centres, all correct QR/RQ backends", "why_tests_cant": "composition of two sweeps over every chain and every backend answer", "anchors": ["xmps/fMPS.py:fMPS.mixed_orthogonalise"]}
{"id": "C09", "title": "local measurement at the orthogonality centre equals the global expectation value", "statement": "If the tensors left of a contiguous block are left isometries and those right of it right isometries, then contracting the block with a k-site operator (E_k) equals <psi|O|psi> computed from all amplitudes.", "quantifier": "all chains in mixed form, all contiguous blocks, all operators on the block", "why_tests_cant": "equality of a local contraction with an exponentially large sum, for all lengths and blocks", "anchors": ["xmps/fMPS.py:fMPS.E_k", "xmps/fMPS.py:fMPS.E", "xmps/fMPS.py:fMPS.Es", "xmps/fMPS.py:fMPS.links"]}
{"id": "C10", "title": "E, Es and E_k agree on one-site operators", "statement": "Users expect E(op,k), Es([op],k) and E_k(op,[k]) to be the same number <psi|op|psi>. Es and E_k are; E (and E_) contract the operator transposed, so E returns the expectation of op^T and differs for non-symmetric operators such as Sy.", "quantifier": "all chains, all operators, all sites", "why_tests_cant": "the test-suite only compares symmetric operators, or compares E with E_ which has the same defect; the exact set of operators where they agree is a universally quantified statement", "anchors": ["xmps/fMPS.py:fMPS.E", "xmps/fMPS.py:fMPS.E_", "xmps/fMPS.py:fMPS.Es", "xmps/fMPS.py:fMPS.E_k"]}
{"id": "C11", "title": "E measures at the true centre after every call history", "statement": "Whatever sequence of public calls was made on an MPS object, E(op,k) contracts at a site that really is the orthogonality centre, or re-orthogonalises first. True for histories built from construction, apply, mul, add, copy, left/right/mixed_orthogonalise; false once mixed_canonicalise(k>0) (stale centre 0), post_select or in-place two-site gates are in the history.", "quantifier": "all finite sequences of method calls on an MPS object, all sites", "why_tests_cant": "quantifies over histories; the stale-flag bug needs a particular sequence of calls", "anchors": ["xmps/fMPS.py:fMPS.E", "xmps/fMPS.py:fMPS.mixed_canonicalise", "xmps/fMPS.py:fMPS.right_canonicalise", "xmps/fMPS.py:fMPS.mixed_orthogonalise", "xmps/fMPS.py:fMPS.post_select", "xmps/fMPS.py:fMPS.apply_two_site", "xmps/fMPS.py:fMPS.copy"]}
{"id": "C12", "title": "left_canonicalise sweep keeps the state when nothing is truncated and isometries always", "statement": "The left sweep of left_canonicalise (with or without a bond limit D) yields left-isometric tensors and bond dimensions at most D; when the discarded singular values are all zero, old amplitudes = new amplitudes * norm_.", "quantifier": "all chains, all D, all correct SVD backends", "why_tests_cant": "truncation interacts with every later site; must hold for all backends and spectra", "anchors": ["xmps/fMPS.py:fMPS.left_canonicalise", "xmps/tensor.py:truncate_A"]}
{"id": "C13", "title": "right_canonicalise sweep keeps the ray when nothing is truncated and isometries always", "statement": "The left-moving sweep of right_canonicalise yields right-isometric tensors with bonds at most D; when the discarded singular values are all zero the old amplitudes are the new ones times a single scalar.", "quantifier": "all chains, all D, all correct SVD backends", "why_tests_cant": "as C12", "anchors": ["xmps/fMPS.py:fMPS.right_canonicalise", "xmps/tensor.py:truncate_B"]}
{"id": "C14", "title": "serialize/deserialize round trip", "statement": "Deserialising the vector produced by serialize with the same list of shapes gives back the same tensors; the same through the real-valued encoding; the length of the vector is the sum of the tensor sizes and deserialize consumes exactly that much.", "quantifier": "all chains and all shape lists", "why_tests_cant": "round trips for every structure; offsets depend on all earlier shapes", "anchors": ["xmps/fMPS.py:fMPS.serialize", "xmps/fMPS.py:fMPS.deserialize"]}
{"id": "C15", "title": "store/load round trip", "statement": "load(store(m)) returns the same tensors: always in structured mode, and in unstructured mode exactly when m's structure is the canonical one for (L,d,D). After a canonicalisation that shrank bonds the unstructured file no longer decodes to m.", "quantifier": "all chains, both modes", "why_tests_cant": "depends on how the recorded D relates to the actual bond profile after arbitrary earlier calls", "anchors": ["xmps/fMPS.py:fMPS.store", "xmps/fMPS.py:fMPS.load", "xmps/fMPS.py:fMPS.create_structure"]}
{"id": "C16", "title": "create_structure gives the maximal open-boundary bond profile", "statement": "For L>=2 create_structure(L,d,D) has L entries; bond k has dimension min(d^min(k,L-k), D): outer bonds 1, neighbouring entries agree, the profile is mirror symmetric and every bond is at most D and at most the Schmidt bound; with D=None it is the exact Schmidt bound. L=1 raises an IndexError.", "quantifier": "all lengths, physical dimensions >=1, bond limits >=1", "why_tests_cant": "closed form for every L, parity case split", "anchors": ["xmps/fMPS.py:fMPS.create_structure"]}
{"id": "C17", "title": "state -> MPS -> state", "statement": "Splitting a full state tensor with right_from_state (left_from_state) gives right (left) isometric tensors whose recombination equals the state up to one overall scalar.", "quantifier": "all state tensors with L axes of dimension d, any correct SVD backend", "why_tests_cant": "all lengths and entries; needs an index invariant across C- and F-order reshapes", "anchors": ["xmps/fMPS.py:fMPS.left_from_state", "xmps/fMPS.py:fMPS.right_from_state"]}
{"id": "C18", "title": "factors returns the most balanced factorisation", "statement": "factors(n) = [a,b] with a*b = n and |a-b| minimal over all factorisations, for every n>=1; factors(d*d) = [d,d]; the smaller factor comes first, except for n = r(r+1), where the larger one does, so two different local dimensions can be returned swapped.", "quantifier": "all positive integers n", "why_tests_cant": "number-theoretic claim for all n", "anchors": ["xmps/fMPS.py:factors", "xmps/fPEPS.py:factors"]}
{"id": "C19", "title": "splitting a grouped pair of sites loses nothing", "statement": "group_tensors after separate_tensor_qr / rq gives back the grouped tensor, and after separate_tensor_svd without truncation gives it back up to the norm of the singular values (with truncation: the truncated expansion up to the norm of the kept values); the left (right) factor is a left (right) isometry; the two local dimensions are those factors() picks.", "quantifier": "all two-site tensors, all backends", "why_tests_cant": "all dimensions and backend answers", "anchors": ["xmps/fMPS.py:group_tensors", "xmps/fMPS.py:separate_tensor_qr", "xmps/fMPS.py:separate_tensor_rq", "xmps/fMPS.py:separate_tensor_svd"]}
{"id": "C20", "title": "apply_two_site implements the two-site gate, at any distance", "statement": "Without truncation, apply_two_site((op,(i,j))) changes the amplitudes exactly as op acting on sites min(i,j), max(i,j), with all other sites back in their original order after the swap network. Passing the sites in descending order does not exchange the operator's legs.", "quantifier": "all chains of qubits, all i<>j, all operators, all QR/RQ backends", "why_tests_cant": "distance-dependent swap network; all pairs of sites", "anchors": ["xmps/fMPS.py:fMPS.apply_two_site", "xmps/fMPS.py:apply_unitary"]}
{"id": "C21", "title": "post_select projects onto a fixed local outcome", "statement": "post_select(k,w) leaves a chain with one tensor less whose amplitudes are those of the original with s_k=w. The recorded length L is not updated, so recombine on the result is wrong.", "quantifier": "all chains with >=2 sites, all k and w", "why_tests_cant": "all positions including both boundaries; stale attribute", "anchors": ["xmps/fMPS.py:fMPS.post_select"]}
{"id": "C22", "title": "zero padding does not change the state", "statement": "Padding bonds with zeros (expand before canonicalising, mps_pad) leaves every amplitude unchanged and gives the requested bond profile.", "quantifier": "all chains and target profiles that dominate the current one", "why_tests_cant": "all profiles", "anchors": ["xmps/fMPS.py:fMPS.expand", "xmps/tensor.py:mps_pad"]}
{"id": "C23", "title": "links describes a closed contraction", "statement": "For every k>=1, links(k) and links(k,op=False) list every label exactly twice, labels are 1..N without gaps, so the network it describes is a scalar; label n joins the n-th bra tensor to the operator, label k+n the n-th ket tensor.", "quantifier": "all k>=1", "why_tests_cant": "for all k", "anchors": ["xmps/fMPS.py:fMPS.links"]}
{"id": "C24", "title": "rho is the reduced density matrix", "statement": "For a chain in mixed form with its centre in the block, rho(sites) is the partial trace of |psi><psi| over the other sites, so E_k(O,sites) = Tr(rho O); for product states the list of one-site matrices is its tensor factors.", "quantifier": "all chains in mixed form, all contiguous blocks", "why_tests_cant": "all lengths and blocks", "anchors": ["xmps/fMPS.py:fMPS.rho", "xmps/fMPS.py:fMPS.E_k"]}
{"id": "C25", "title": "memo tables of F1/F2 never confuse two site pairs", "statement": "The cached second-derivative blocks are looked up by the decimal strings of the two sites concatenated. No two different pairs of sites share a key iff the chain has at most 11 sites (10 for the three-site keys of christoffel). On such chains every sequence of F1/F2 calls, with any ids, returns the block asked for; from 12 sites on a lookup can return another pair's block. A repeated contracted christoffel call returns a value in another gauge.", "quantifier": "all pairs of site pairs, all chain lengths", "why_tests_cant": "a collision needs chains longer than any in the tests; injectivity is over all pairs", "anchors": ["xmps/fMPS.py:fMPS.F1", "xmps/fMPS.py:fMPS.F2", "xmps/fMPS.py:fMPS.christoffel"]}
{"id": "C26", "title": "tangent vectors survive packing into coordinates", "statement": "When the sites with an empty tangent space come first, import_tangent_vector accepts every vector of the tangent-space dimension and extract_tangent_vector gives it back; extract of any dA gives a vector of that dimension, and importing it gives the gauge-fixed projection of dA, which is dA itself when dA satisfies the gauge condition. Not so: when a site with an empty tangent space follows one with a tangent space (bonds 1,1,2,1), import fails on the vector extract returned.", "quantifier": "all chains with invertible environments, all vectors, all dA, all library results meeting their contracts", "why_tests_cant": "offset arithmetic over all bond profiles, including sites with empty tangent space", "anchors": ["xmps/fMPS.py:fMPS.extract_tangent_vector", "xmps/fMPS.py:fMPS.import_tangent_vector", "xmps/fMPS.py:fMPS.tangent_space_dims"]}
{"id": "C27", "title": "ncon computes the Einstein summation, for every contraction order", "statement": "For every well-formed network of tensors and labels, ncon returns the tensor indexed by the negative labels in decreasing order (-1,-2,..) whose entries are the sum over all positive labels of the product of tensor entries; the result does not depend on the contraction order given, nor on how disconnected parts are joined.", "quantifier": "all networks, all label patterns (traces, outer products, disconnected parts), all contraction orders", "why_tests_cant": "infinite family of networks and orders", "anchors": ["xmps/ncon.py:ncon"]}
{"id": "C28", "title": "ncon rejects malformed networks", "statement": "With index checking on, ncon raises ValueError exactly when the number of label lists differs from the number of tensors, a label list does not match its tensor's rank, a label to be contracted does not occur exactly twice or joins legs of different sizes, or a free label does not occur exactly once; every network without the label 0 that passes is contracted without error. (The label 0 is not looked at by the check and makes the contraction fail later.)", "quantifier": "all label lists and tensors", "why_tests_cant": "soundness and completeness of a validator over all inputs", "anchors": ["xmps/ncon.py:do_check_indices"]}
{"id": "C29", "title": "tensor transposes are involutions", "statement": "T, H and C of tensor.py are involutions on arrays of every rank, H = C after T, and H reverses matrix products.", "quantifier": "arrays of all ranks >=2 and all shapes", "why_tests_cant": "all ranks and shapes", "anchors": ["xmps/tensor.py:T", "xmps/tensor.py:H", "xmps/tensor.py:C"]}
{"id": "C30", "title": "Kronecker index helpers address the right entries", "statement": "kron(A,B)[loc(st,uv,d)] = A[st]*B[uv] for all indices in range, rectangular version included; split_up splits a two-site operator into its four legs consistently with loc. loc_3 exchanges the last two factors, so it is right only for operators symmetric under that exchange.", "quantifier": "all matrices, dimensions and indices", "why_tests_cant": "all dimensions; the test for loc_3 uses three equal factors and cannot see the exchange", "anchors": ["xmps/tensor.py:loc", "xmps/tensor.py:loc_3", "xmps/tensor.py:split_up"]}
{"id": "C31", "title": "partial traces trace out the right subsystems", "statement": "partial_trace(rho,keep,dims) and rho_A reproduce the textbook partial trace entry by entry; the trace is preserved, and keeping everything returns the input.", "quantifier": "all numbers of subsystems, dimensions, subsets kept and density matrices", "why_tests_cant": "all subset and dimension combinations", "anchors": ["xmps/tensor.py:partial_trace", "xmps/spin.py:partial_trace", "xmps/tensor.py:ρA"]}
{"id": "C32", "title": "uqr/urq are factorisations with non-negative diagonal", "statement": "uqr(A)=(q,r) with q r = A, q isometric, r triangular with positive diagonal whenever the raw factor has no zero on its diagonal, and then the result does not depend on the LAPACK in use; same for urq on matrices that are not tall. For rank-deficient input the sign matrix annihilates rows and the product is wrong; for tall input urq reads the signs off the wrong diagonal and can return wrong factors at full rank.", "quantifier": "all matrices and all correct QR backends", "why_tests_cant": "rank-deficient input is a measure-zero set random tests never hit", "anchors": ["xmps/tensor.py:uqr", "xmps/tensor.py:urq"]}
{"id": "C33", "title": "embed/deembed and unitary completion", "statement": "embed(v) is a unitary of size v.size whose first column is v/norm(v), and deembed of it gives a 2x2 v back up to the norm (deembed accepts nothing but 4x4); direct_sum is the block-diagonal sum of square matrices and fails otherwise; unitary_extension of an isometry, tall, wide or square, is unitary, contains the isometry in its top-left corner, and has the requested size when that is not below the size of the isometry.", "quantifier": "all matrices / isometries, all target sizes", "why_tests_cant": "all shapes and null-space bases", "anchors": ["xmps/tensor.py:embed", "xmps/tensor.py:deembed", "xmps/tensor.py:unitary_extension", "xmps/tensor.py:direct_sum"]}
{"id": "C34", "title": "a trajectory's history is the sequence of iterated steps", "statement": "After eulerint(T), rk4int(T) or invfreeint(T) on a grid of at least two points the history has one new entry per time point, entry n is the encoding of the state after n steps (step size T[1]-T[0]) from the prepared current state, and the current mps becomes the last recorded state; calling an integrator again restarts from there, so that state is recorded again (after preparation); no sequence of calls loses an entry. A grid with one point raises IndexError.", "quantifier": "all time grids, all step maps, all sequences of integrator calls", "why_tests_cant": "all lengths of grids and sequences of calls", "anchors": ["xmps/fTDVP.py:Trajectory.eulerint", "xmps/fTDVP.py:Trajectory.rk4int", "xmps/fTDVP.py:Trajectory.euler", "xmps/fTDVP.py:Trajectory.rk4"]}
{"id": "C35", "title": "the rk4 step is the classical Runge-Kutta combination", "statement": "Trajectory.rk4 advances by (k1+2k2+2k3+k4)/6 with the classical stage points, for every vector field; it is exact for vector fields polynomial in time of degree <=3 in the sense that on a linear field it reproduces the degree-4 Taylor polynomial. iTDVP's rk4 is not that combination.", "quantifier": "all vector fields, states and steps", "why_tests_cant": "algebraic identity for every field; convergence tests only bound errors for one Hamiltonian", "anchors": ["xmps/fTDVP.py:Trajectory.rk4", "xmps/iTDVP.py:Trajectory.rk4"]}
{"id": "C36", "title": "bond dimensions recorded per history entry stay aligned", "statement": "mps_list decodes entry k of the history with the bond dimension that was current when it was stored, for every interleaving of integration and expand/contract whose recorded states have the full structure of their bond dimension. clear empties the history but keeps the old bond list, after which decoding pairs entries with stale dimensions and fails. eulerint or rk4int directly after expand can fail because the preparation cuts the padded bonds again.", "quantifier": "all sequences of integrate / expand / contract / clear", "why_tests_cant": "history-dependent bookkeeping", "anchors": ["xmps/fTDVP.py:Trajectory.mps_list", "xmps/fTDVP.py:Trajectory.expand", "xmps/fTDVP.py:Trajectory.contract", "xmps/fTDVP.py:Trajectory.clear"]}
{"id": "C37", "title": "saving runs never overwrites an earlier run", "statement": "Starting from a directory without entries named run_name_..., successive saved runs get the distinct new names run_name_1, run_name_2, ... for the first ten; the eleventh attempt computes an existing name and fails. Other runs whose names continue run_name with an underscore make it fail earlier.", "quantifier": "all numbers of runs", "why_tests_cant": "needs more runs than any test performs", "anchors": ["xmps/fTDVP.py:Trajectory.stop"]}
{"id": "C38", "title": "the Lyapunov estimate is the running mean", "statement": "The stored exponent estimate after n steps is the arithmetic mean of the n per-step growth rates.", "quantifier": "all sequences of growth rates", "why_tests_cant": "induction over all run lengths", "anchors": ["xmps/fTDVP.py:Trajectory.lyapunov"]}
{"id": "C39", "title": "transfer-matrix operators match their dense form", "statement": "TransferMatrix.mv applied to a matrix equals the dense asmatrix applied to its vectorisation; mvr equals the transposed dense matrix, hence is the adjoint only for real tensors.", "quantifier": "all tensors and all matrices", "why_tests_cant": "all shapes and entries; adjointness is only visible for complex tensors", "anchors": ["xmps/iMPS.py:TransferMatrix"]}
{"id": "C40", "title": "Map's right action is the adjoint of its left action", "statement": "For the mixed map built from two tensor sets, mvr is the adjoint of mv for the trace inner product, and asmatrix is its dense form.", "quantifier": "all pairs of tensors, all matrices", "why_tests_cant": "all shapes and entries", "anchors": ["xmps/iMPS.py:Map"]}
{"id": "C41", "title": "n_body embeds an operator at the stated site", "statement": "n_body(op,i,n) is the Kronecker product with op at position i (1-based) and identities elsewhere; operators on different sites commute, on the same site multiply; i<=0 silently yields the identity, i>n raises. With d given and op extending over k sites, op is placed behind i sites (0-based i) and the chain has n+1 sites in total.", "quantifier": "all operators, positions and chain lengths", "why_tests_cant": "all n, i", "anchors": ["xmps/spin.py:n_body", "xmps/spin.py:tensor"]}
{"id": "C42", "title": "spins(S) satisfies the angular-momentum algebra for every spin", "statement": "The three matrices are Hermitian, satisfy [Sx,Sy]=i Sz and cyclic, and Sx^2+Sy^2+Sz^2=S(S+1) for every half-integer S.", "quantifier": "all S in {1/2,1,3/2,...}", "why_tests_cant": "infinite family of representations, square roots of integers", "anchors": ["xmps/spin.py:spins", "xmps/spin.py:ladders"]}
{"id": "C43", "title": "su(N) returns an orthogonal generator basis for every N", "statement": "su(N) has N^2-1 matrices, all Hermitian and traceless with Tr(T_a T_b)=2 delta_ab, and every traceless matrix is a combination of them.", "quantifier": "all N>=2", "why_tests_cant": "infinite family", "anchors": ["xmps/spin.py:su"]}
{"id": "C44", "title": "angle parametrisations and gates are normalised", "statement": "Nsphere(v) is a unit vector for every list of angles; swap, CNOT, CZ are self-inverse unitary permutations with the documented action; levi_civita is the sign of the permutation of its indices and vanishes on repeats.", "quantifier": "all angle lists, all ranks of the Levi-Civita tensor", "why_tests_cant": "all dimensions and angles", "anchors": ["xmps/spin.py:Nsphere", "xmps/spin.py:swap", "xmps/spin.py:CNOT", "xmps/spin.py:CZ", "xmps/spin.py:levi_civita"]}
{"id": "C45", "title": "Hamiltonian: every view describes the same operator", "statement": "For every dictionary of two-letter strings and every L>=3, the matrices of to_matrices(L), each placed on its bond, add up to the couplings on all bonds plus one field per site (left field on the first site, right field on the last, their mean inside). The MPO of to_mpo(L), which exists exactly for Heisenberg-type dictionaries (else NotImplementedError), contracted over L sites is the same operator for L>=3; a documented dictionary of couplings and one-letter fields means these couplings and the full fields in both views. to_full of matrices is the sum of the embedded matrices. Not so: for L=2 to_matrices halves the fields and disagrees with the MPO; a one-letter key is stored in full under both two-letter keys, not halved as the docstring says; to_full from strings always raises AttributeError.", "quantifier": "all coefficient dictionaries, all L", "why_tests_cant": "all lengths and coefficient sets", "anchors": ["xmps/Hamiltonians.py:Hamiltonian.to_mpo", "xmps/Hamiltonians.py:Hamiltonian.to_matrices", "xmps/Hamiltonians.py:Hamiltonian.to_matrix", "xmps/Hamiltonians.py:Hamiltonian.to_full"]}
{"id": "C46", "title": "group_legs / ungroup_legs round trip", "statement": "ungroup_legs(group_legs(t,pipe)) = t for every tensor and every partition of its legs in any order, and the grouped tensor's dimensions are the products of the grouped legs.", "quantifier": "all ranks, shapes and leg partitions", "why_tests_cant": "all permutations and partitions", "anchors": ["xmps/peps_tools.py:group_legs", "xmps/peps_tools.py:ungroup_legs", "xmps/peps_tools.py:inverse_transpose"]}
{"id": "C47", "title": "PEPS transpose and flips are involutions preserving the state", "statement": "x.T.T, x.R.R and x.U.U have the same tensors as x, and the state vector of x.T / x.R / x.U is that of x with lattice sites relabelled accordingly. The recorded centre of the flip of a non-square PEPS built from data is not the flipped centre and can leave the lattice.", "quantifier": "all lattice sizes and tensors", "why_tests_cant": "all Lx, Ly; the recorded centre uses Lx=number of rows for both directions, so non-square lattices differ", "anchors": ["xmps/fPEPS.py:fPEPS.T", "xmps/fPEPS.py:fPEPS.R", "xmps/fPEPS.py:fPEPS.U"]}
{"id": "C48", "title": "PEPS addition represents the sum of two states", "statement": "x.add(y) has amplitudes <s|x>+<s|y> whenever the recorded sides are the numbers of columns and rows and both are at least 2; it raises for a recorded side of 1. For non-square PEPS built from data the recorded sides are exchanged and the result is not the sum.", "quantifier": "all lattice sizes >=2x2 (square and not), all bond dimensions", "why_tests_cant": "all corner/edge/bulk combinations; on non-square lattices the row/column counts are exchanged", "anchors": ["xmps/fPEPS.py:fPEPS.add"]}
{"id": "C49", "title": "MPO multiplication composes the operators", "statement": "The operator of (A*B) is the operator of A applied after B, for every pair of MPOs of equal length.", "quantifier": "all MPO pairs", "why_tests_cant": "all lengths and bond dimensions", "anchors": ["xmps/fPEPS.py:fMPO.__mul__", "xmps/fPEPS.py:fMPO.recombine"]}
{"id": "C50", "title": "PEPS contraction of rows and columns preserves amplitudes", "statement": "Contracting neighbouring rows/columns (row_contract, col_contract, recombine) yields the PEPS amplitude: the sum over all bond indices of the product of tensor entries, with physical indices grouped in reading order.", "quantifier": "all lattices", "why_tests_cant": "all sizes", "anchors": ["xmps/fPEPS.py:row_contract", "xmps/fPEPS.py:col_contract", "xmps/fPEPS.py:fPEPS.recombine"]}
{"id": "C51", "title": "canonical-form predicates decide what they claim", "statement": "is_right_canonical / is_left_canonical: for tolerances c, z below 1, True implies that every entry of sum_s A_s A_s^dagger - 1 (sum_s A_s^dagger A_s - 1) of every tensor is below z or at most c in absolute value, and for z at most 1/2 entries all below z give True (so an empty list passes). is_right_env_canonical / is_left_env_canonical are True exactly when the environment equation holds on every site except the last. is_full_rank is True exactly when no diagonal entry is zero, has_trace_1 exactly when all traces are one. Not so: the environment predicates do not look at the last site.", "quantifier": "all tensor lists", "why_tests_cant": "soundness and completeness over all inputs", "anchors": ["xmps/tests.py:is_left_canonical", "xmps/tests.py:is_right_canonical", "xmps/tests.py:is_left_env_canonical", "xmps/tests.py:is_right_env_canonical"]}
{"id": "C52", "title": "thermofield-double symmetry", "statement": "On tensors all of whose dimensions are squares, fTFD.symmetry exchanges the two halves of every index, so that the amplitude of a configuration becomes that of the configuration with its halves exchanged; otherwise it raises ValueError. It is an involution, symmetrise returns a fixed point of it, and the double of any MPS (kron(a,a)) is a fixed point whose amplitudes are products of the MPS amplitudes. Not so: symmetrise is no projection, it multiplies the state of a double by 2^L.", "quantifier": "all chains, all dimensions, all configurations", "why_tests_cant": "all lengths and dimensions", "anchors": ["xmps/fMPS.py:fTFD.symmetry", "xmps/fMPS.py:fTFD.symmetrise", "xmps/fMPS.py:fTFD.from_fMPS"]}
{"id": "C53", "title": "tangent-space gauge projector", "statement": "With a diagonal positive environment (which get_envs always returns) and a complete null-space basis, the left null projector is self-adjoint, satisfies the gauge condition sum_s A_s^dagger l (P X)_s = 0 for every X and acts as identity on tensors satisfying it. Not so: with the non-diagonal environment of a chain the gauge condition fails; the right null projector satisfies it with weight r^(3/2) instead of r.", "quantifier": "all tensors, all invertible diagonal environments, all null-space bases", "why_tests_cant": "all shapes, all backends", "anchors": ["xmps/fMPS.py:fMPS.left_null_projector"]}
{"id": "C54", "title": "SVD wrapper falls back exactly once", "statement": "svd with the default driver returns the divide-and-conquer result if it converges and otherwise the QR-iteration result; invalid drivers are rejected; an error is raised only if the last driver tried fails.", "quantifier": "all behaviours of the two drivers", "why_tests_cant": "needs failing LAPACK calls, which tests cannot provoke at will", "anchors": ["xmps/svd_robust.py:svd"]}
{"id": "C55", "title": "energy is the sum of local terms for canonical chains", "statement": "For a chain whose true environments are diagonal and real (canonical form), energy(H) is (1/L) times the sum over bonds of <psi|h_m|psi>; for other chains off-diagonal parts of the environments are dropped and the value is wrong.", "quantifier": "all chains, all nearest-neighbour Hamiltonians", "why_tests_cant": "all lengths; silently wrong off canonical form", "anchors": ["xmps/fMPS.py:fMPS.energy", "xmps/fMPS.py:fMPS.get_envs"]}
{"id": "C56", "title": "product states and extend are tensor products", "statement": "fMPS.from_product_state(vs) represents the tensor product of the given one-site vectors (amplitude = product of the entries), and a.extend(b) represents the tensor product of the two states: the amplitude of a concatenated configuration is the product of the amplitudes.", "quantifier": "all lists of vectors, all pairs of closed chains", "why_tests_cant": "unbounded in length, local dimension and bond dimension", "anchors": ["xmps/fMPS.py:fMPS.from_product_state", "xmps/fMPS.py:fMPS.extend"]}
{"id": "C57", "title": "attributes of constructed and canonicalised objects", "statement": "fMPS(data) has L = number of tensors, d = first physical dimension unless given, D = the largest bond of any tensor, and all canonical/orthogonal flags unset; it fails exactly on an empty list or when D is passed. left_canonicalise(D)/right_canonicalise(D) record min(D, old D).", "quantifier": "all lists of tensors, all arguments", "why_tests_cant": "all shapes and lengths; tests look at a few random chains", "anchors": ["xmps/fMPS.py:fMPS.__init__", "xmps/fMPS.py:fMPS.left_canonicalise", "xmps/fMPS.py:fMPS.right_canonicalise", "xmps/fMPS.py:fMPS.bond_dimension"]}
{"id": "C58", "title": "itemwise arithmetic acts on the tensor entries", "statement": "a+b, a-b and c*a act entry by entry on the tensors and keep all shapes; on states c*a multiplies every amplitude by c**L.", "quantifier": "all pairs of MPS of equal shapes, all scalars", "why_tests_cant": "an identity for all entries, shapes and lengths", "anchors": ["xmps/fMPS.py:fMPS.__add__", "xmps/fMPS.py:fMPS.__sub__", "xmps/fMPS.py:fMPS.__mul__"]}
{"id": "C59", "title": "local_overlap is the overlap of reduced density matrices", "statement": "For two chains of the same length and local dimension and a contiguous block, a.local_overlap(b, sites) is Tr(rho_a rho_b) of the normalised states when both have bond dimension above 1; when one of them is a product state its own norm outside the block is not divided out.", "quantifier": "all pairs of chains with truthful centres, all contiguous blocks", "why_tests_cant": "all lengths, blocks and states; the branch taken depends on the bond dimensions", "anchors": ["xmps/fMPS.py:fMPS.local_overlap", "xmps/fMPS.py:fMPS.rho", "xmps/fMPS.py:fMPS.E_k"]}
{"id": "C60", "title": "get_null_space returns an orthonormal basis of the kernel", "statement": "For a k x M matrix A, k <= M, get_null_space(A) has M-k orthonormal columns, all killed by A; when the rows of A are independent every vector killed by A is a combination of them.", "quantifier": "all wide matrices, all correct QR backends", "why_tests_cant": "all shapes and all bases a backend may choose; completeness quantifies over all vectors", "anchors": ["xmps/tensor.py:get_null_space"]}
{"id": "C61", "title": "rotate_to_hermitian recovers the Hermitian matrix up to sign", "statement": "If r = w h with |w| = 1, h Hermitian and h[0,0] nonzero, rotate_to_hermitian(r) is h or -h, hence Hermitian, and the returned phase times the result is r.", "quantifier": "all Hermitian matrices and phases, all correct square roots", "why_tests_cant": "the branch of the square root and the phase are arbitrary", "anchors": ["xmps/tensor.py:rotate_to_hermitian"]}
{"id": "C62", "title": "swap symmetrisation and the swap-symmetric generators", "statement": "swap_symmetrise returns a matrix commuting with the exchange of the two qubits and changes exactly the matrices that do not; is_swap_symmetric decides the symmetry; slambdas are nine Hermitian, traceless, orthogonal, swap-symmetric matrices that span the traceless swap-symmetric matrices. swap_antisymmetrise does not antisymmetrise.", "quantifier": "all 4x4 matrices", "why_tests_cant": "quantifies over all two-qubit matrices; the source itself says the spanning claim should be proved", "anchors": ["xmps/spin.py:swap_symmetrise", "xmps/spin.py:swap_antisymmetrise", "xmps/spin.py:is_swap_symmetric", "xmps/spin.py:slambdas"]}
{"id": "C63", "title": "two-site generators and spinors satisfy their algebra", "statement": "lambdas are fifteen Hermitian traceless matrices with Tr(T_a T_b)=2 delta_ab that span the traceless 4x4 matrices; antiferro satisfies [n_x,n_y]=2i n_z and cyclic; ferro satisfies no such relation with a single factor ([m_x,m_y]=4i m_z but [m_y,m_z]=i m_x).", "quantifier": "all 4x4 traceless matrices", "why_tests_cant": "completeness quantifies over all matrices; exact algebraic identities", "anchors": ["xmps/spin.py:lambdas", "xmps/spin.py:antiferro", "xmps/spin.py:ferro"]}
{"id": "C64", "title": "Lie algebra components and their embedding", "statement": "components(Q) are the coefficients of Q in su(N): combining them gives Q back for every traceless Q, and components of a combination are its coefficients, real for Hermitian Q. insu2N(v, where) gives the components in su(2n) of the matrix of v with a two-level identity inserted on the left, on the right or before the last qubit.", "quantifier": "all N, all traceless matrices, all coefficient vectors", "why_tests_cant": "infinite family of dimensions and matrices", "anchors": ["xmps/spin.py:components", "xmps/spin.py:insu2N", "xmps/spin.py:su"]}
{"id": "C65", "title": "gates built from Lie algebra vectors are unitary", "statement": "SU(v, N) exponentiates -i times the combination of the su(N) generators with the coefficients v (any other length raises ValueError; SU4 and SU8 are the cases 4 and 8); for real v the result of SU, U4 and U4s is unitary; U4s(v) commutes with the exchange of its two qubits; SU(v, n, '2N') is SU(v, n) with an identity inserted before the last qubit; U1, U2 and unknown representations always raise.", "quantifier": "all dimensions N, all coefficient vectors, every matrix exponential meeting its contract", "why_tests_cant": "unitarity for every real vector in every dimension; random tests only sample vectors and cannot separate rounding from a wrong generator", "anchors": ["xmps/spin.py:SU", "xmps/spin.py:U4", "xmps/spin.py:U4s", "xmps/spin.py:SU4", "xmps/spin.py:SU8", "xmps/spin.py:U1", "xmps/spin.py:U2"]}
{"id": "C66", "title": "coordinates of a unitary and comparison up to phase", "statement": "extractv(U) are coordinates with SU(extractv(U), N) = w U, where w has modulus one and the coordinates are real when U is unitary; to_new_v(v) are real coordinates of the same gate up to a phase; equal_up_to_phase returns True only for matrices equal up to a phase, and for all of them whose first entry does not vanish, but misses X and iX.", "quantifier": "all dimensions, all square matrices with a logarithm, all real vectors", "why_tests_cant": "an identity over all unitaries; the missed case has measure zero under random testing", "anchors": ["xmps/spin.py:extractv", "xmps/spin.py:to_new_v", "xmps/spin.py:equal_up_to_phase"]}
{"id": "C67", "title": "snake recombination lists the amplitudes along the snake", "statement": "recombine('row_snake') lists the amplitudes of a PEPS with the sites numbered along the snake (every second row reversed) whenever at most one bond between two rows has more than one value; with two wide bonds between rows it does not.", "quantifier": "all lattices and tensors", "why_tests_cant": "all sizes and bond dimensions; the reversed rows meet rows whose bonds are not reversed", "anchors": ["xmps/fPEPS.py:fPEPS.recombine"]}
{"id": "C68", "title": "a PEPS made of an MPS holds its state", "statement": "fPEPS().from_mps(mps, Lx) is a PEPS of Lx columns whose amplitude at a lattice configuration is the amplitude of the MPS along the snake, and recombine('row_snake') gives the state vector of the MPS; without Lx a square lattice is used.", "quantifier": "all MPS of Lx*Ly sites, Lx>1", "why_tests_cant": "all lengths, bond and local dimensions", "anchors": ["xmps/fPEPS.py:fPEPS.from_mps"]}
{"id": "C69", "title": "PEPS overlaps are inner products", "statement": "full_overlap returns the sum over all configurations of conj(<s|x>) <s|y>, and so does overlap for two or more columns; overlap of single columns fails.", "quantifier": "all pairs of PEPS of equal lattice and local dimensions (overlap: two or more columns)", "why_tests_cant": "all sizes and bond dimensions", "anchors": ["xmps/fPEPS.py:fPEPS.overlap", "xmps/fPEPS.py:fPEPS.full_overlap"]}
{"id": "C70", "title": "PEPS gates and expectation values on one site", "statement": "apply(op, (i, j)) acts with op on the site in column i and row j and on nothing else; E(op, (i, j)) is the real part of <x|op|x>.", "quantifier": "all PEPS, sites and operators", "why_tests_cant": "all sizes and bond dimensions", "anchors": ["xmps/fPEPS.py:fPEPS.apply", "xmps/fPEPS.py:fPEPS.E"]}
{"id": "C71", "title": "PEPS expectation values on a block", "statement": "E_k(op, (x, y), width, height) is the real part of <x|op|x> with op acting on the block of the given columns and rows, its sites taken column by column; the documented reading order, row by row, is not the one used.", "quantifier": "all PEPS, blocks narrower than the lattice, operators", "why_tests_cant": "all sizes; the documented reading order is not the order used", "anchors": ["xmps/fPEPS.py:fPEPS.E_k", "xmps/fPEPS.py:fPEPS.contract"]}
{"id": "C72", "title": "fixed points of the transfer matrix", "statement": "TransferMatrix.eigs returns an eigenvalue with a left and a right eigenvector of the transfer map, Hermitian up to a common sign and normalised to tr(l r) = 1; this is the pairing of the two layers only if r is symmetric.", "quantifier": "all tensors with bond dimension at least two, any start vectors", "why_tests_cant": "all shapes and entries; the pairing only differs for complex tensors", "anchors": ["xmps/iMPS.py:TransferMatrix.eigs"]}
{"id": "C73", "title": "canonical forms of infinite MPS", "statement": "canonicalise('r'), ('l'), ('m') replaces the tensor by a gauge-equivalent one of unit norm per site that is right-isometric, left-isometric, or symmetric between both, with the stored L the diagonal of singular values; with to_vidal the returned pair is in Vidal's form.", "quantifier": "all tensors whose fixed points are Hermitian positive", "why_tests_cant": "needs all tensors and exact linear algebra; tests use a tolerance", "anchors": ["xmps/iMPS.py:iMPS.canonicalise"]}
{"id": "C74", "title": "expectation values of infinite MPS", "statement": "E(op) is the expectation value of op in the normalised state; E(op, c) after canonicalise(c), for c in 'l', 'r', 'm', and ivMPS.E give the value of the transposed operator, so that they agree with E(op) for symmetric op and not in general.", "quantifier": "all tensors and all operators", "why_tests_cant": "only visible for operators that are not symmetric", "anchors": ["xmps/iMPS.py:iMPS.E", "xmps/iMPS.py:iMPS.Es", "xmps/iMPS.py:ivMPS.E"]}
{"id": "C75", "title": "energy of infinite MPS", "statement": "energy([h]) is the real part of the two-site expectation value of h on neighbouring sites with the right fixed point transposed: the energy per site if r is symmetric, a wrong value in general.", "quantifier": "all tensors with transfer eigenvalue one and all h", "why_tests_cant": "only visible for complex tensors with r not symmetric", "anchors": ["xmps/iMPS.py:iMPS.energy"]}
{"id": "C76", "title": "eigenvector predicates of Map", "statement": "is_right_eigenvector(r, lam) and is_left_eigenvector(l, lam) hold exactly if r (l) equals lam times its image: they decide fixed points at lam = 1, and for any other lam they test the eigenvalue 1/lam.", "quantifier": "all tensors, matrices and eigenvalues", "why_tests_cant": "tests only use lam = 1", "anchors": ["xmps/iMPS.py:Map.is_right_eigenvector", "xmps/iMPS.py:Map.is_left_eigenvector"]}
{"id": "C77", "title": "construction, indexing and storage of infinite MPS", "statement": "serialize then deserialize, and store then load, give back the tensors, d, D and the period; m[k] is 0-based access, and m(k), documented as 1-based, returns the tensor after m[k].", "quantifier": "all periods, d, D and entries", "why_tests_cant": "all sizes; indexing beyond the first tensor is not tested", "anchors": ["xmps/iMPS.py:iMPS.serialize", "xmps/iMPS.py:iMPS.deserialize", "xmps/iMPS.py:iMPS.store", "xmps/iMPS.py:iMPS.load", "xmps/iMPS.py:iMPS.__call__"]}
{"id": "C78", "title": "dA_dt solves the time-dependent variational principle", "statement": "For an open chain whose environments are diagonal, with local dimension at least 2 and a Hamiltonian given by two-site terms, dA_dt returns tensors of the shapes of the state. They satisfy the left gauge condition at every site. The overlap of the resulting time derivative of the state with every gauge-fixed tangent vector is -i times the matrix element of the Hamiltonian between that vector and the state. Sites without tangent space get zero. self.e holds the bond energies, last bond first.", "quantifier": "all lengths, local dimensions, bond profiles, entries, Hamiltonians (Hermitian or not), and all library results meeting their contracts", "why_tests_cant": "the sum over all terms and sites with three different networks per term; tests compare with exact diagonalisation for a few chains and tolerances", "anchors": ["xmps/fMPS.py:fMPS.dA_dt", "xmps/fMPS.py:fMPS.left_transfer", "xmps/fMPS.py:fMPS.left_null_projector"]}
{"id": "C79", "title": "the flow of dA_dt conserves norm and energy", "statement": "Under the same conditions the time derivative of the state given by dA_dt is orthogonal to the state, so its norm is stationary, and if the terms of the Hamiltonian are Hermitian the derivative of the energy vanishes.", "quantifier": "all lengths, local dimensions, bond profiles, entries and Hamiltonians", "why_tests_cant": "conservation is exact only without rounding and step-size errors, which hide small violations in tests", "anchors": ["xmps/fMPS.py:fMPS.dA_dt"]}
{"id": "C80", "title": "Map.right_fixed_point and left_fixed_point return eigenvectors", "statement": "right_fixed_point returns the eigenvalue and an eigenvector of r -> sum_s A_s r B_s^dagger whose first entry is real and not negative. left_fixed_point returns an eigenvector of the adjoint map, of norm one, and the eigenvalue times the norm of the vector ARPACK returned, which is the eigenvalue since that norm is one. is_right_eigenvector(r, lam) and is_left_eigenvector accept an eigenvector for the reciprocal lam of its eigenvalue. Not so: that they accept it for the eigenvalue itself.", "quantifier": "all bond dimensions from 2, physical dimensions, complex tensors A and B, start vectors, and all eigensolver results that are eigenvectors", "why_tests_cant": "random tensors only, compared up to tolerances; the eigenvalue argument is always 1 in the tests", "anchors": ["xmps/iMPS.py:Map.right_fixed_point", "xmps/iMPS.py:Map.left_fixed_point", "xmps/iMPS.py:Map.is_right_eigenvector", "xmps/iMPS.py:Map.is_left_eigenvector"]}
{"id": "C81", "title": "F2 returns the matrix elements of the second derivatives of the state", "statement": "For a normalised state with diagonal environments and a Hamiltonian of two-site terms, F2(i, j, H) returns for any two sites, in either order, the array [x1,y1,x2,y2] of <d_(i,x1,y1) d_(j,x2,y2) psi|H|psi>, where the directions (n,x,y) are changes of the tensor of one site that are orthonormal, orthogonal to the state and span everything satisfying the gauge condition; for i = j it is zero, since the state is linear in each tensor. Not so: for a state that is not normalised, the directions at site 0 have another norm (icl[i-1] is the last entry of the list there).", "quantifier": "all lengths, local dimensions from 2, bond dimensions, pairs of sites, complex tensors and two-site terms (Hermitian or not), and all results of the Cholesky, inverse and null-space routines that meet their definitions", "why_tests_cant": "The tests compare one random state with a dense computation up to a tolerance; they cannot cover all positions of the two sites relative to every term", "anchors": ["xmps/fMPS.py:fMPS.F2", "xmps/fMPS.py:fMPS.left_transfer", "xmps/fMPS.py:fMPS.left_null_projector"]}
{"id": "C82", "title": "christoffel returns minus the overlaps of second derivatives with first derivatives", "statement": "For a state with diagonal environments, christoffel(i, j, k) with nothing closed returns for any three sites the array of -<d_i d_j psi|d_k psi> along the dual bases of the tangent directions at the three sites (nine axes, in the order i, j, k, also for j < i). With closed=(None, None, B) it returns the array [x1,y1,x2,y2] of -<d_(i,x1,y1) d_(j,x2,y2) psi|d_Z psi>, where (n,x,y) are the directions obtained from the null space and the inverse roots of the environments and Z is the direction at site k that B represents; the array l(k-1) X r(k) that jac passes represents X. For i = j the result is zero, since the state is linear in each tensor; it is zero too unless k is the smaller of i and j.", "quantifier": "all lengths, local dimensions from 2, bond dimensions, triples of sites, complex tensors, arrays B of the right shape, default or given prs_vLs, and all results of the Cholesky, inverse and null-space routines that meet their definitions", "why_tests_cant": "The tests compare one random state with a dense computation for a few sites and up to a tolerance; which contractions vanish is decided by index conditions in the code for every triple of sites", "anchors": ["xmps/fMPS.py:fMPS.christoffel", "xmps/fMPS.py:fMPS.left_transfer", "xmps/fMPS.py:fMPS.left_null_projector", "xmps/fMPS.py:fMPS.jac"]}
{"id": "C83", "title": "Arithmetic, copies, comparison and conversion of infinite MPS act item by item on the unit cell", "statement": "For two iMPS whose unit cells have tensors of the same shapes, a+b and a-b are new objects whose tensors have the sums and differences as entries, c*a has entries c times those of a (every eigenvalue of the transfer matrix is multiplied by |c|^2, with the same eigenvectors), and c times a/c gives the entries of a back; shapes, period, d and D are those of the cell and no canonical form, Schmidt values or environments are carried over. copy() has the same tensors and the same environments l and r (both or none) but forgets canonical and L, and raises AttributeError exactly when only one of l and r is set. a == b on cells of the same length is True exactly when all pairs of tensors are close, and != is its negation. ivMPS.to_iMPS of a Vidal pair (G, L) gives the tensor G L, which is right isometric with left fixed point L^2 at eigenvalue one. Not so: for cells of different length the longer cell is silently cut off, so that == can be True and + drops tensors.", "quantifier": "All commutative rings with conjugation, all cells, shapes, scalars, closeness predicates and Vidal pairs; quotients by any library division meeting its contract.", "why_tests_cant": "Tests compare a few random cells; they do not show that no entry, shape or attribute can differ for any cell, nor that eigenvectors survive scaling for every tensor.", "anchors": ["xmps/iMPS.py:iMPS.__eq__", "xmps/iMPS.py:iMPS.__add__", "xmps/iMPS.py:iMPS.__sub__", "xmps/iMPS.py:iMPS.__mul__", "xmps/iMPS.py:iMPS.__truediv__", "xmps/iMPS.py:iMPS.copy", "xmps/iMPS.py:ivMPS.to_iMPS"]}
{"id": "C84", "title": "Spin, Pauli and ladder operators on a chain obey the spin algebra at their site and commute elsewhere", "statement": "N_body_spins(S, i, n) returns three hermitian operators on n sites which act as S_x, S_y, S_z at the i-th site (counted from one), as the identity elsewhere, and satisfy [S_x, S_y] = i S_z and its cyclic versions. N_body_paulis gives the three Pauli matrices at that site, with {sigma_a, sigma_b} = 2 delta_ab. N_body_ladders returns S_- first and S_+ second: S_+ = S_x + i S_y is the adjoint of S_-, [S_+, S_-] = 2 S_z and [S_z, S_+] = S_+ with the operators of N_body_spins at the same site. Operators of any two different sites commute. For a spin other than 1/2, 1 and 3/2 N_body_ladders raises AttributeError. Not so: the first argument of N_body_paulis is ignored.", "quantifier": "all spins (ladders: 1/2, 1 and 3/2), chain lengths, sites and pairs of sites, all commutative rings with conjugation containing i, 1/2 and the square roots used", "why_tests_cant": "Tests look at a few chain lengths and spins in floating point; that the algebra holds at every site of every chain and that all pairs commute is a statement about all sizes", "anchors": ["xmps/spin.py:N_body_spins", "xmps/spin.py:N_body_paulis", "xmps/spin.py:N_body_ladders", "xmps/spin.py:comm", "xmps/spin.py:acomm"]}
{"id": "C85", "title": "Product states, append and states turned into operators have the amplitudes one expects", "statement": "product_state_overlap(v) is sum_s psi(s) conj(prod_k v_k(s_k)). from_product_states returns one state per item, with the products as amplitudes. append(t) keeps all tensors and adds t at the end for any t; if both bonds of t are 1 the amplitudes are psi(s) t(x). fMPO().from_mps(m) has up legs of dimension one and the amplitudes of m on its down legs; recombine() of it is one column of the conjugated amplitudes in the usual order, and operator * from_mps(m) has the amplitudes sum_k O(k, s) psi(k): the operator applied to the state.", "quantifier": "all lengths, local and bond dimensions, complex entries, operators whose up legs fit the state", "why_tests_cant": "Tests build a few random states of fixed size; the amplitudes for every length and every bond dimension follow only by induction over the chain", "anchors": ["xmps/fMPS.py:fMPS.product_state_overlap", "xmps/fMPS.py:fMPS.from_product_state", "xmps/fMPS.py:fMPS.from_product_states", "xmps/fMPS.py:fMPS.append", "xmps/fPEPS.py:fMPO.from_mps", "xmps/fPEPS.py:fMPO.__mul__", "xmps/fPEPS.py:fMPO.recombine"]}
{"id": "C86", "title": "k_local_approx_overlap is the mean of the overlaps of reduced density matrices over all windows of k sites", "statement": "For two states a and b of norm one, each in mixed form around the centre it records, a.k_local_approx_overlap(b, k) times the number L-k+1 of windows is sum_i Re Tr(rho_a rho_b), with the reduced density matrices of a and b on the sites i..i+k-1. Both objects may be changed on the way, but they still are states of norm one in mixed form and equal the original ones up to a factor of modulus one, so the windows do not influence each other. Without k it is the overlap sum_s psi_a(s) conj(psi_b(s)) and nothing is changed. For k larger than the chain there is no window and no mean (nan in numpy).", "quantifier": "all lengths, local dimensions from 2, bond dimensions (product states included), 0 < k <= L, complex tensors, and all results of the library decompositions that meet their definitions", "why_tests_cant": "Every window moves the orthogonality centre of both objects; that no sequence of windows changes the states or later values needs an invariant, not examples", "anchors": ["xmps/fMPS.py:fMPS.k_local_approx_overlap", "xmps/fMPS.py:fMPS.approx_overlap", "xmps/fMPS.py:fMPS.local_overlap"]}
{"id": "C87", "title": "match_gauge_to changes the gauge but not the state, and makes every tensor overlap positive", "statement": "For states a and b on the same sites, where no bond of a exceeds that of b, a.match_gauge_to(b) multiplies the state of a by at most a factor of modulus one: psi_before = w psi_after with |w| = 1. Afterwards a has the bond dimensions of b, and at every site sum_s A_s B_s^dagger is a positive matrix. If the bonds agreed and the tensors of a were right isometries they still are. The only exception is a failure of the decomposition.", "quantifier": "all lengths, local and bond dimensions (bonds of a at most those of b), complex tensors, singular overlaps included, and all results of scipy.linalg.polar that meet its definition", "why_tests_cant": "The loop changes two tensors per step and the overlap of a later step depends on the unitary of the earlier one; that all overlaps are positive at the end, also for non-unique polar factors, is not visible from sampled states", "anchors": ["xmps/fMPS.py:fMPS.match_gauge_to"]}
{"id": "C88", "title": "entanglement_entropy is the entropy of the spectrum of the reduced density matrix", "statement": "For a nonzero state m of any norm and a cut k < L, m.entanglement_entropy(k) is -sum p log p over those p above the threshold, where the p are the absolute values of the nonzero eigenvalues, with multiplicity, of the density matrix of the first k sites divided by the norm; the eigenvalues sum to one and their eigenvectors are orthonormal. The object is canonicalised on the way: its state changes by a scalar factor only.", "quantifier": "all lengths, local and bond dimensions, all cuts k < L, complex tensors of any norm, rank-deficient tensors included, all results of the decompositions that meet their definitions", "why_tests_cant": "The eigenvalues come from matrices stored on the bonds by a canonicalisation sweep; that they are the full spectrum of the reduced density matrix for every state needs the Schmidt decomposition", "anchors": ["xmps/fMPS.py:fMPS.entanglement_entropy", "xmps/fMPS.py:fMPS.left_canonicalise"]}
{"id": "C89", "title": "vfMPS.from_fMPS followed by to_fMPS gives the canonical tensors back; item access and comparison of states", "statement": "vfMPS().from_fMPS(m).to_fMPS() has, site by site, the tensors of m after right_canonicalise, so it is the same state as m up to a scalar, with the same d and L; the only exception is a failure of a decomposition or inverse. m[k] = A changes item k and no other. a == b for states of equal length holds exactly when all pairs of tensors are close, and a != b is the negation. Not so: vfMPS(data, d).to_fMPS() always raises AttributeError since the constructor forgets its data; states of different lengths are equal when one continues the other; m(k) is m[k+1].", "quantifier": "all lengths, local and bond dimensions, complex tensors, all results of the decompositions and of the inverse that meet their definitions, all closeness predicates", "why_tests_cant": "The round trip multiplies by a matrix and its inverse at each site, and is correct only because all bond matrices of a canonical form are invertible, a fact about every state", "anchors": ["xmps/fMPS.py:vfMPS.from_fMPS", "xmps/fMPS.py:vfMPS.to_fMPS", "xmps/fMPS.py:vfMPS.__init__", "xmps/fMPS.py:fMPS.__getitem__", "xmps/fMPS.py:fMPS.__setitem__", "xmps/fMPS.py:fMPS.__eq__", "xmps/fMPS.py:fMPS.__ne__", "xmps/fMPS.py:fMPS.__call__"]}
{"id": "C90", "title": "dA_dt(H, fullH=True) is the time-dependent variational principle for a Hamiltonian given as one matrix", "statement": "For a state in canonical form and any matrix H on the whole chain, m.dA_dt(H, fullH=True) returns tensors of the shapes of m whose velocity has, with every tangent vector, the overlap -i times the matrix element of H; the norm does not change, and for a Hermitian H neither does the energy. When H is the sum of nearest-neighbour terms, the tensors are those that m.dA_dt(terms) returns.", "quantifier": "all lengths, local and bond dimensions, complex canonical states with invertible environments, all matrices on the chain, all results of the Cholesky factor, inverse and null space that meet their definitions, all iteration orders of sets inside ncon", "why_tests_cant": "The two code paths share neither networks nor labels; tests compare them on a few random states of one length, while the labels of the opened network depend on the site and on the length", "anchors": ["xmps/fMPS.py:fMPS.dA_dt", "xmps/fMPS.py:fMPS.links", "xmps/fMPS.py:fMPS.left_null_projector"]}
{"id": "C91", "title": "Exact evolution and the read-outs of a trajectory", "statement": "edint(T) records one vector per time point: the first is the state of the MPS, each next one is the previous one times exp(-i*H*(T[1]-T[0])), and mps is then a normalised MPS proportional to the last vector; mps_history and Ds are untouched. For a Hermitian H and real times every observable that commutes with H has the same expectation at every time point, so the norm and the energy are constant and ed_energies returns the same number in every row; ed_evs returns the real part of <psi|op|psi> for every vector and operator. A list of two-site qubit terms stands for the sum of the i-th term on sites i, i+1. After an ordinary run mps_evs returns the normalised expectation values of the recorded states in order, and loschmidt the moduli of their overlaps with the first one provided the bond dimension never changed. When vectors but no MPS are recorded, mps_list first makes one MPS of every vector that is not zero: canonical, with diagonal non-zero environments, and proportional to the vector. Not so: after edint on a new trajectory mps_list and mps_evs see only one state whatever the number of time points, because Ds has one entry; and after expand loschmidt raises although mps_list works.", "quantifier": "every chain length, local dimension, time list with at least two points, Hamiltonian (one matrix, or a list of two-site terms), observable, run history, and every matrix exponential and SVD meeting their contracts", "why_tests_cant": "conservation has to hold for all states, all step counts and all commuting observables; the shortened read-back only shows when the number of results is compared with the number of time points", "anchors": ["xmps/fTDVP.py:Trajectory.edint", "xmps/fTDVP.py:Trajectory.ed_evs", "xmps/fTDVP.py:Trajectory.ed_energies", "xmps/fTDVP.py:Trajectory.mps_list", "xmps/fTDVP.py:Trajectory.mps_evs", "xmps/fTDVP.py:Trajectory.loschmidt"]}
{"id": "C92", "title": "The Heisenberg and Ising chains of qmb.py and fMPO.py", "statement": "fMPO.anisotropic_heisenberg(L, h, J, Jz) sets L >= 2 MPO tensors whose bonds fit together and whose product is, entry by entry, sum J/4 (XX + YY) + Jz ZZ over all bonds minus h Z over all sites; L <= 1 gives the two-site MPO. qmb.anisotropic_heisenberg and the sum of qmb.local_anisotropic_heisenbergs are meant to be the same operator, and local_isings -J ZZ with -g X. Not so: `from spin import *` rebinds tensor, so site operators are plain arrays; anisotropic_heisenberg returns only Jz ZZ - h Z for every J and every local function raises AttributeError. With qutip's tensor they would be right: full matrix, local terms and MPO agree; local_ising on every bond has half the field on the end sites; local_XX ignores g. S_n_body puts the operator on site i, raises for i >= n and gives the identity for negative i.", "quantifier": "for all numbers of sites, all couplings and fields, all pairs of basis states", "why_tests_cant": "Tests compare one length and one set of couplings, and the shipped test of this file raises before comparing; the equality of three constructions is for every length and coupling.", "anchors": ["xmps/qmb.py:S_n_body", "xmps/qmb.py:anisotropic_heisenberg", "xmps/qmb.py:local_anisotropic_heisenberg", "xmps/qmb.py:local_anisotropic_heisenbergs", "xmps/qmb.py:local_ising", "xmps/qmb.py:local_isings", "xmps/qmb.py:local_XX", "xmps/projects/fMPO.py:fMPO.anisotropic_heisenberg"]}
{"id": "C93", "title": "The example states", "statement": "bell(i) for i = 1..4 is a normalised two-qubit MPS proportional to 00+11, 11-00, 01+10 and 01-10, left canonical, and different i give orthogonal states; comp_z(1..4) are exactly the four computational basis states; comp_x(1..4) are the normalised products ++, +-, -+, --, mutually orthogonal. Not so: the docstring of comp_x gives -+ for i = 2; and AKLT() is not the AKLT state: its tensor has a total-spin-2 component on neighbouring sites (the coefficient of the Sz = 0 matrix is wrong), which vanishes with -sqrt(1/3) sigma_z.", "quantifier": "for every choice of singular and eigenvectors that LAPACK may return, every index 1..4, all values of the square roots with the stated squares", "why_tests_cant": "The amplitudes depend on the gauge LAPACK chooses, so a test sees one of many representations; the AKLT tensor is normalised and gapped-looking whatever its coefficients, only the projection on spin 2 tells the difference.", "anchors": ["xmps/mps_examples.py:bell", "xmps/mps_examples.py:comp_z", "xmps/mps_examples.py:comp_x", "xmps/mps_examples.py:AKLT"]}
{"id": "C94", "title": "The symplectic basis of the linearised dynamics", "statement": "changebasis(n) is a 2n x 2n orthogonal matrix that takes the stacked vector (x_1..x_n, p_1..p_n) to the interleaved (x_1, p_1, .., x_n, p_n). sympmat(n) is the symplectic form: its value on two stacked vectors is sum x_k p'_k - p_k x'_k, and written in the interleaved basis it consists of n blocks [[0, 1], [-1, 0]].", "quantifier": "for all n, all vectors, all pairs of indices", "why_tests_cant": "A test fixes n; the index arithmetic of the row filling has to be right for every n.", "anchors": ["xmps/fMPS.py:sympmat", "xmps/fMPS.py:changebasis"]}
{"id": "C95", "title": "Read-outs and dynamics of thermofield doubles", "statement": "fTFD.E and Es at a site return the expectation value (E: its real part), in the normalised state, of the transposed one-site operator on the first half (lr = 0) or second half of the site, whatever the gauge of the tensors, and leave the same state up to a factor; for the double of an MPS they are the values of the transposed operators in the MPS, and a state invariant under the exchange of halves has the same values on both halves. Not so: they are not the values of the operators themselves (Sy changes sign). And fTFD.dA_dt does not evolve two copies with the Hamiltonian: the term for the sites k, k+1 acts between the two halves of site k and between the two halves of site k+1, sites are never coupled.", "quantifier": "for all chains, bond dimensions, sites, operators, Hamiltonian terms, and every SVD, Cholesky factor, inverse and null space meeting their contracts", "why_tests_cant": "The shipped test compares the two halves with each other, which holds for the transposed operator as well, and the test of the evolution asserts nothing; that no choice of state is coupled is a statement about every state.", "anchors": ["xmps/fMPS.py:fTFD.E", "xmps/fMPS.py:fTFD.Es", "xmps/fMPS.py:fTFD.dA_dt", "xmps/fMPS.py:fTFD.left_null_projector"]}
{"id": "C96", "title": "The symmetric and antisymmetric null spaces of get_vL", "statement": "symm_asymm(D) for D = q^2 gives two complementary orthogonal projectors and their difference M with M M = 1. get_vL splits every null space into two parts with sum vL, of which the first is left unchanged and the second negated by M times the exchange of the physical halves. Not so: the first part is not symmetric under the exchange of the halves of sites and bonds that symmetry() performs.", "quantifier": "for all q, all physical dimensions that are squares, all arrays vL", "why_tests_cant": "The test checks the relation with M itself for one bond dimension, which holds for any M of square one.", "anchors": ["xmps/fMPS.py:fTFD.symm_asymm", "xmps/fMPS.py:fTFD.get_vL", "xmps/fMPS.py:fs"]}
{"id": "C97", "title": "right_transfer carries an operator to the right, up to an exchange of layers", "statement": "Let m.right_transfer(op, i, j) = R. R(i+1) is op. R(i+2) is the transpose of op carried through site i+1 (ket tensor on u, conjugate on d, summed over the physical index). Through tensors without imaginary parts R(n) is op carried through sites i+1..n-1, transposed when their number is odd. Leading axes of op are untouched. Not so: for complex tensors two or more steps are the transfer; every second tensor enters conjugated. Not so: ret_all=False returns the transferred operator; it returns op.", "quantifier": "all chains, all i<j, all operators with any number of leading axes, all n", "why_tests_cant": "the exchange of the two layers is invisible on real states and Hermitian operators, and the claim is for every number of steps", "anchors": ["xmps/fMPS.py:fMPS.right_transfer"]}
{"id": "C98", "title": "rho_proj gives the transition matrix of two product states", "statement": "For product states a, b of local dimension not 1 and a block of neighbouring sites, a.rho_proj(b, sites) has in row s, column t the sum over all configurations off the block of a'(u,s,v) conj b(u,t,v), a' being a with its tensors off the block conjugated; this is the partial trace of |a><b| when those tensors are real. Otherwise (bond dimension above 1, or single_string=False) it returns None. Not so: it is the partial trace for every product state; for (|0>+i|1>) off the block the result vanishes.", "quantifier": "all pairs of product states, all blocks, all lengths and local dimensions", "why_tests_cant": "the missing conjugation cancels on real states", "anchors": ["xmps/fMPS.py:fMPS.rho_proj"]}
{"id": "C99", "title": "random builds a chain of the requested shape", "statement": "random(L,d,D) with L>=2, D>=2 has L sites of local dimension d, bonds min(d^min(k,L-k), D), records L, d, D = the largest bond, canonical = orthogonal = False; real=True draws no imaginary part. With D=1 it is a normalised product state of L spins. L=1 with D>1 raises IndexError. Not so: D=1 honours d; the tensors always have local dimension 2. Not so: the record of an orthogonality centre of an earlier state is cleared.", "quantifier": "all L, d, D, all outcomes of the random generator", "why_tests_cant": "the claim is for every size and every draw", "anchors": ["xmps/fMPS.py:fMPS.random"]}
{"id": "C100", "title": "apply_two_site_isometry merges two sites", "statement": "apply_two_site_isometry((op,(i,i+1)), lr) replaces the tensor lr of the pair by the merged tensor with op applied to the joint physical index and leaves the other in place. The chain without the other tensor has the amplitudes of the old state with op applied; the order in which the sites are given does not matter. Equal sites raise AssertionError. Not so: the object is a chain afterwards; with the left-over tensor the bonds fit only if they happened to be equal.", "quantifier": "all chains, all neighbouring pairs, all operators from the pair to any dimension, lr = 0, 1", "why_tests_cant": "for all chains; on chains with equal bond dimensions the left-over tensor goes unnoticed", "anchors": ["xmps/fMPS.py:fMPS.apply_two_site_isometry", "xmps/fMPS.py:apply_isometry"]}
{"id": "C101", "title": "ed_OTOC is the squared norm of a commutator", "statement": "For a trajectory with a full matrix H and Hermitian V and W, ed_OTOC(T,(V,W)) has one entry per time: the squared norm of [W(t),V] applied to the current state, with W(t) = U^dagger W U and U = exp(-iHt). The entries are real and not negative; at t = 0 it is the norm of [W,V]psi, if W commutes with a Hermitian H every entry is this number, and commuting operators give zero. A list of local terms raises AssertionError, a grid with fewer than two times IndexError. Not so: the entries are squared norms for operators that are not Hermitian.", "quantifier": "all chains, all Hamiltonians and operators of matching size, all time grids", "why_tests_cant": "for all operators and times; Pauli matrices, the usual test operators, are Hermitian", "anchors": ["xmps/fTDVP.py:Trajectory.ed_OTOC", "xmps/spin.py:comm", "xmps/tensor.py:H"]}
{"id": "C102", "title": "Trajectories of infinite states and their Loschmidt rates", "statement": "eulerint(T) and rk4int(T) of iTDVP.Trajectory append one stored state per time to mps_history and one D to Ds; the stored states are the orbit of the step from the left canonical form of the current state, all of them are left canonical, and the new current state is the last stored one: the last step is thrown away. Grids of one time (and an empty grid with an empty history) raise IndexError. loschmidts() gives for every stored state minus the log of the squared modulus of an eigenvalue, with a normalised eigenvector, of the mixed transfer map of left isometric tensors of this state and of the first one; without history it raises AssertionError. Not so: rk4 is a Runge-Kutta step; even constant fields are not integrated exactly.", "quantifier": "all one-site cells, all vector fields that keep the shape, all time grids, all histories", "why_tests_cant": "for all grids, fields and states; the dropped last step and the extra factor dt vanish as dt goes to 0", "anchors": ["xmps/iTDVP.py:Trajectory.eulerint", "xmps/iTDVP.py:Trajectory.rk4int", "xmps/iTDVP.py:Trajectory.euler", "xmps/iTDVP.py:Trajectory.rk4", "xmps/iTDVP.py:Trajectory.loschmidts", "xmps/iMPS.py:iMPS.overlap"]}
{"id": "C103", "title": "renyi is the second Renyi entropy, and what the disentangler returns", "statement": "For a unitary two-site operator U and a wave function theta[x,y,l,r], renyi(U, theta) is minus the log of Tr rho^2, rho the density matrix of the left half (first physical index and left bond) of U theta; both halves give the same number, unitaries on single sites after U do not change it, and a product of normalised halves gives -log 1. When renyi_2_disentangler(psi) returns (U, Ss), U is unitary, Ss has at least three entries, its last entry is the entropy for U and differs from the one before by no more than eps, whatever the random restarts were. A run that does not converge within max_iter passes is followed by a fresh one from the next restart, so a call can return after restarts, and Ss has max_iter entries for every such run followed by 3 to max_iter of the last. With max_iter < 3 it never returns. Not so: renyi gives Tr rho^2 for operators that are not unitary.", "quantifier": "all dimensions, all unitaries, all wave functions, all restarts, all numbers of iterations", "why_tests_cant": "for all operators and wave functions; non-termination cannot be tested", "anchors": ["xmps/peps_tools.py:E2", "xmps/peps_tools.py:renyi", "xmps/peps_tools.py:renyi_2_disentangler"]}
{"id": "C104", "title": "find_ground_state is a descent through left canonical states", "statement": "find_ground_state left canonicalises a random state of the requested shape and takes steps psi -> left canonical form of psi - i eps dA_dt(psi); all states visited are left canonical. es has one entry per step taken, the energy of the state before the step; at most maxiters steps are taken, and fewer only if the norm of the increment at the returned state is below tol. Every entry of iMPS().random is 5 (a + i b) with its own two draws a, b. Not so: the last entry of es is the energy of the returned state.", "quantifier": "all vector fields and energies, all shapes, step sizes, tolerances and numbers of iterations", "why_tests_cant": "for all Hamiltonians and random starts", "anchors": ["xmps/iOptimize.py:find_ground_state", "xmps/iMPS.py:iMPS.random", "xmps/iMPS.py:iMPS.__sub__"]}
{"id": "C105", "title": "mps_energies is the energy of every stored state", "statement": "After any run of integrators, expand and contract, mps_energies returns one number per stored state, in order: <psi|H|psi>/<psi|psi> of that state for a full Hamiltonian, the same divided by the number of sites for a list of two-site terms, normalised or not and in any gauge, since left_canonicalise makes all environments diagonal. Without a Hamiltonian or a history it raises AssertionError. Trajectory.deserialize reads back all stored states if they have the shapes of the current bond dimension. Not so: deserialize reads every history that mps_list reads; after expand it raises ValueError.", "quantifier": "all runs, all states that are not zero, all Hamiltonians of the right size", "why_tests_cant": "for all histories and Hamiltonians; a test sees one trajectory", "anchors": ["xmps/fTDVP.py:Trajectory.mps_energies", "xmps/fTDVP.py:Trajectory.deserialize", "xmps/fMPS.py:fMPS.energy", "xmps/fMPS.py:fMPS.left_canonicalise"]}
{"id": "C106", "title": "effH gives the effective Hamiltonian of a site", "statement": "For a chain with boundary bonds of size one and an MPO of matching shapes, effH(W, A).get_envs(k) makes L the block of all sites left of k (axes MPO, bra, ket) and R the block of all sites right of k (axes MPO, ket, bra). asmatrix() has as entry [(i,x,y),(i',x',y')] the sum over the MPO bonds of L[w,x,x'] W[i,i',w,w'] R[w',y,y']. If the right block is symmetric in bra and ket (for instance at the last site, or when the tensors there are real and the MPO is symmetric in its physical indices), conj(B).asmatrix().B' = <..B..|H|..B'..> for all tensors B, B' of that site. Not so in general: R is used with bra and ket exchanged, and for the two-site Heisenberg MPO of fMPO the matrix at the first site has a wrong entry. aslinearoperator() @ v gives at position (left, physical, right) the row (physical, left, right) of asmatrix() @ v: the two agree at a site with left bond one, and not so at the last site of two.", "quantifier": "all chains, MPOs, sites k, all tensors B, B' and vectors v", "why_tests_cant": "the test compares the matrix and the operator on one random state; the exchange of bra and ket shows only for MPOs that are not symmetric, and no test compares with <psi|H|psi>", "anchors": ["xmps/projects/fMPO.py:effH.env_right", "xmps/projects/fMPO.py:effH.env_left", "xmps/projects/fMPO.py:effH.get_left_env", "xmps/projects/fMPO.py:effH.get_right_env", "xmps/projects/fMPO.py:effH.get_envs", "xmps/projects/fMPO.py:effH.mv", "xmps/projects/fMPO.py:effH.asmatrix", "xmps/projects/fMPO.py:effH.aslinearoperator"]}
{"id": "C107", "title": "Truncations of a PEPS cut exactly the named bonds", "statement": "For a PEPS with matching bonds whose Lx is the number of rows, truncate_below(row, D) and truncate_above(row, D) cut all bonds below resp. above the row to at most D, truncate_left(col, D) all bonds left of the column, truncate_along_row and truncate_along_column all bonds inside the row resp. column. The result is again a PEPS with matching bonds, no other bond changes, every amplitude is the old contraction with the sum over a cut bond stopped after D values, and if the tensors vanish beyond that the state is the same. At the border truncate_above, truncate_left and truncate_below raise. fix_neighbours(i, j) for arrays with any bonds, with Lx columns and Ly rows, cuts the four bonds of the place to the smaller of the two sizes on both sides and changes no entry and no other leg. Not so: that all of these work on one and the same object. fPEPS(data) sets Lx to the number of rows and random makes Lx columns: on a PEPS that is not square fix_neighbours raises IndexError or leaves a bond unmatched in the first case, truncate_left and truncate_below raise in the second.", "quantifier": "all grids, bonds, entries, rows, columns, D > 0", "why_tests_cant": "for all grids and bonds; a test sees one PEPS, usually square, where rows and columns cannot be told apart", "anchors": ["xmps/fPEPS.py:row_truncate", "xmps/fPEPS.py:fPEPS.truncate_above", "xmps/fPEPS.py:fPEPS.truncate_below", "xmps/fPEPS.py:fPEPS.truncate_left", "xmps/fPEPS.py:fPEPS.truncate_along_row", "xmps/fPEPS.py:fPEPS.truncate_along_column", "xmps/fPEPS.py:fPEPS.fix_neighbours"]}
{"id": "C108", "title": "Transposing, mirroring and rotating a matrix product operator", "statement": "For an fMPO (class in fPEPS.py) whose bonds fit around the ring, transpose_ud() exchanges the up and down indices: the element between us and ds becomes the one between ds and us, and recombine() becomes the transposed matrix, without conjugation. transpose_lr().reverse() is the operator with its sites in the opposite order. unrotate_90() undoes rotate_90() on the arrays. random(L, d, X) is an operator with open ends on L >= 2 sites of dimension d; the elements of trivial(L) are 1. Not so: reverse() or transpose_lr() alone gives an operator, the bonds no longer fit; and random(1, d, X) has as many arrays as the recorded length, it has two.", "quantifier": "all operators, lengths, dimensions, bond sizes and indices", "why_tests_cant": "for all operators, with open or closed ends; no test calls these methods, and a symmetric operator hides an exchanged leg", "anchors": ["xmps/fPEPS.py:fMPO.transpose_ud", "xmps/fPEPS.py:fMPO.transpose_lr", "xmps/fPEPS.py:fMPO.rotate_90", "xmps/fPEPS.py:fMPO.unrotate_90", "xmps/fPEPS.py:fMPO.reverse", "xmps/fPEPS.py:fMPO.create_structure", "xmps/fPEPS.py:fMPO.random", "xmps/fPEPS.py:fMPO.trivial"]}
