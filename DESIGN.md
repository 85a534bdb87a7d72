# Design of the formal model of xmps

Source: `/repo` (fergusbarratt/xmps), read as text only.
Model and proofs: `rocq/theories`, Coq 8.16.1.

## Approach

* The Python functions become small Gallina functions which follow the source
  branch by branch. Exceptions are values.
* numpy arrays become a shape and an entry function, or flat row-major lists
  where the layout matters (serialisation, reshape).
* Numbers are elements of an arbitrary commutative ring with an involution
  (complex conjugation) and a real-part map, passed explicitly as a record. The
  theorems hold in every such ring. Gaussian rationals are the executable
  instance for examples and refutations, the complex numbers over the
  standard-library reals the instance where square roots are needed.
* Floating point rounding, dtype conversion and `allclose` tolerances are not
  modelled: arithmetic is exact.
* LAPACK results (SVD, QR, RQ, eigenvectors, null spaces) come from oracles: a
  partial function whose answers, where it answers, are assumed to be correct
  factorisations. No uniqueness, sign or ordering convention is assumed unless
  stated.

## Files

`ModelX.v` holds definitions only, each with a citation of file and lines and of
what was simplified. `SpecX.v` holds the vocabulary of the statements, which does
not use the helpers of the model. `ProofX.v` holds the lemmas, `PropX.v` the
property theorems closed by `exact` with `Print Assumptions` and the examples,
`ExX.v` the concrete objects of the examples and refutations. `Alg.v` is the
algebra of finite sums over the scalars, `QScalars.v` the Gaussian rationals,
`Oracle.v` the table-driven library routines used in examples.

`seeded/LOG.jsonl` records the wrong programs the theorems were tried against:
one line per edit of a model definition, with the theorems that stopped proving
and those that were tightened because one did not.

## Properties

For every property: what is modelled and how it is proved, the outcome, the files and the theorems.
Every status is taken from `MANIFEST.json`. A claim that is false of the code is stated in
`properties.jsonl` as it is true, followed by "Not so"; the false part is a theorem ending in
`_refuted` with a witness.

### C01 overlap is the Hilbert-space inner product (proved)

* Modelled and proved: ModelMPS: sites as (d,Dl,Dr,entry function), `overlap` as the left-to-right environment fold of lines 731-743. Spec: sum over configurations of path-sum amplitudes. Proof: environment invariant by induction on the chain.
* Outcome: overlap, full_overlap and norm for every chain; argument errors included. overlap(a,b) = sum psi_a conj(psi_b), which is the conjugate of full_overlap(a,b).
* Files: PropMPS
* Theorems: `C01_overlap_inner_product`, `C01_full_overlap`, `C01_overlap_conj_full_overlap`, `C01_overlap_conj_symmetric`, `C01_norm_sum_of_squares`, `C01_length_mismatch_rejected`, `C01_dimension_mismatch_rejected`

### C02 recombine computes the matrix-product amplitudes (proved)

* Modelled and proved: `recombine` as left fold of matrix products; spec: right-nested path sum. Proof: associativity by sum exchange.
* Outcome: recombine lists the path-sum amplitudes in row-major order.
* Files: PropMPS
* Theorems: `C02_recombine_amplitudes`, `C02_configurations_complete`, `C02_associative`

### C03 add represents the sum of two states (proved)

* Modelled and proved: `add` branch by branch (i=0, i=L-1, bulk). Proof: split-sum invariant on block rows. L=1: refuted with a witness.
* Outcome: for two or more sites; on one site the claim is false and refuted with a witness (C03_single_site_refuted).
* Files: PropMPS
* Theorems: `C03_add_sum`, `C03_single_site_drops_other`, `C03_single_site_refuted`

### C04 scalar multiplication scales the state (proved)

* Modelled and proved: `mul`, `__mul__`. Induction on the chain.
* Outcome: mul scales by c; the * operator scales by c^L.
* Files: PropMPS
* Theorems: `C04_mul_scales`, `C04_star_scales_every_site`

### C05 apply acts as the one-site operator (proved)

* Modelled and proved: `apply` with list update. Induction on position.
* Outcome: the model is functional, so 'the original is untouched' holds by construction (apply copies the list).
* Files: PropMPS
* Theorems: `C05_apply_one_site`, `C05_out_of_range_rejected`

### C06 left_orthogonalise: isometric tensors, same state (proved)

* Modelled and proved: `left_orthogonalise` with the QR routine as a partial oracle whose answers are assumed to be factorisations. Sweep invariant.
* Outcome: full sweep and every partial range; QR is an oracle assumed correct where it answers.
* Files: PropOrth
* Theorems: `C06_left_orthogonalise`, `C06_left_orthogonalise_range`, `C06_left_orthogonalise_to_the_end`, `C06_fails_only_with_qr`, `C06_range_fails_only_with_qr`

### C07 right_orthogonalise: isometric tensors, same state (proved)

* Modelled and proved: mirror image of C06 with RQ.
* Outcome: mirror image of C06 with RQ.
* Files: PropOrth
* Theorems: `C07_right_orthogonalise`, `C07_right_orthogonalise_range`, `C07_right_orthogonalise_from_the_start`, `C07_fails_only_with_rq`, `C07_range_fails_only_with_rq`

### C08 mixed_orthogonalise brings any chain to mixed form around the requested site (proved)

* Modelled and proved: composition of C07 and C06 plus a norm oracle; k=0 scale loss refuted with a witness.
* Outcome: every centre; at k=0 the reported norm_ is not the norm of the state (refuted with a witness).
* Files: PropOrth
* Theorems: `C08_mixed_orthogonalise`, `C08_scale_at_site_0_refuted`, `C08_fails_only_with_lapack`

### C09 local measurement at the orthogonality centre equals the global expectation value (proved)

* Modelled and proved: environment collapse lemmas: left isometries give identity left environments, right isometries right ones.
* Outcome: E_k with a k-site operator or a string of one-site operators, and E_L, modelled through the ncon model; exact for blocks with isometries around them, divided by the norm otherwise.
* Files: PropEk
* Theorems: `C09_E_k_mixed`, `C09_E_k_string_mixed`, `C09_E_k`, `C09_E_k_string`, `C09_E_L`

### C10 E, Es and E_k agree on one-site operators (proved)

* Modelled and proved: direct consequence of C09's machinery; refutation by a two-level witness with Sy.
* Outcome: Es and E_k return the expectation value of op, E and E_ that of its transpose; refutations with Sy show that they differ.
* Files: PropEk, PropMeas
* Theorems: `C10_E_k`, `C10_E_and_E_k_differ`, `C10_Es`, `C10_E_underscore_is_transposed`, `C10_E_is_transposed`, `C10_E_refuted`, `C10_E_underscore_refuted`, `C10_Es_fails_only_with_lapack`

### C11 E measures at the true centre after every call history (proved)

* Modelled and proved: object state machine with flags canonical/orthogonal/oc; invariant over all op lists for the good ops; refutation traces for the bad ones.
* Outcome: all histories of construct, copy, apply, mul, add, full and mixed orthogonalisation, canonicalisation, E; refuted for mixed_canonicalise(k>0) and partial sweeps; after post_select E raises.
* Files: PropMeas, PropTwo
* Theorems: `C11_E_after_every_history`, `C11_after_mixed_canonicalise_refuted`, `C11_after_partial_sweep_refuted`, `C11_after_post_select_raises`, `C11_gate_flags_refuted`

### C12 left_canonicalise sweep keeps the state when nothing is truncated and isometries always (proved)

* Modelled and proved: left sweep with SVD oracle and truncate_A.
* Outcome: SVD sweeps with and without a bond limit, and the gauge-fixing sweep back; assumes the eigenvectors returned for a Hermitian matrix are orthonormal with zero eigenvalues last.
* Files: PropCanon
* Theorems: `C12_left_canonicalise`, `C12_left_canonicalise_sweep_back`, `C12_fails_only_with_lapack`

### C13 right_canonicalise sweep keeps the ray when nothing is truncated and isometries always (proved)

* Modelled and proved: right sweep with SVD oracle and truncate_B.
* Outcome: as C12; without the ordering assumption on eig the rank cut annihilates a state (refuted theorem).
* Files: PropCanon
* Theorems: `C13_right_canonicalise`, `C13_right_canonicalise_sweep_back`, `C13_fails_only_with_lapack`, `C13_unsorted_eigenvalues_refuted`

### C14 serialize/deserialize round trip (proved)

* Modelled and proved: flat row-major lists; encode/decode induction over shapes.
* Outcome: complex and real encodings, exact length, any trailing data ignored, too short a vector rejected.
* Files: PropStruct
* Theorems: `C14_serialize_deserialize`, `C14_real_encoding`, `C14_short_vector_rejected`

### C15 store/load round trip (proved)

* Modelled and proved: file contents as number lists with header; both modes; refutation for shrunk bonds.
* Outcome: structured mode always; unstructured mode exactly when the shapes are those of (L,d,D); otherwise an error or a silently different state (two refuted theorems).
* Files: PropStruct
* Theorems: `C15_structured`, `C15_unstructured`, `C15_unstructured_shrunk_refuted`, `C15_unstructured_silent_refuted`

### C16 create_structure gives the maximal open-boundary bond profile (proved)

* Modelled and proved: lists of pairs as in the source; closed form by cases on parity.
* Outcome: closed form for every length from 2 on (and 0); one site raises.
* Files: PropStruct
* Theorems: `C16_create_structure`, `C16_no_limit_is_schmidt_bound`, `C16_single_site_raises`

### C17 state -> MPS -> state (proved)

* Modelled and proved: reshape index maps and SVD oracle; invariant over the split loop.
* Outcome: states with equal axis lengths; the recorded Ls are also proved to be Schmidt coefficients.
* Files: PropState
* Theorems: `C17_right_from_state`, `C17_left_from_state`

### C18 factors returns the most balanced factorisation (proved)

* Modelled and proved: search loop downwards from isqrt(n)+1; number theory over nat.
* Files: PropTwo
* Theorems: `C18_factors`, `C18_square`, `C18_order_refuted`

### C19 splitting a grouped pair of sites loses nothing (proved)

* Modelled and proved: reshape/transpose index maps + oracles.
* Outcome: int(n**0.5) taken as the exact integer square root.
* Files: PropTwo
* Theorems: `C19_qr`, `C19_rq`, `C19_svd`, `C19_group`, `C19_dimensions_refuted`

### C20 apply_two_site implements the two-site gate, at any distance (proved)

* Modelled and proved: swap network as loop over positions; invariant = permutation of configuration entries.
* Outcome: qubits, no truncation (D=None); int(n**0.5) exact.
* Files: PropTwo
* Theorems: `C20_apply_two_site`, `C20_swaps_exact`, `C20_single_site`, `C20_single_site_operator_on_two_sites`, `C20_equal_sites`

### C21 post_select projects onto a fixed local outcome (proved)

* Modelled and proved: in-place list deletion; induction; stale L refuted.
* Outcome: the projected amplitudes are right; the recorded length self.L is stale, refuted with a witness and characterised for every chain.
* Files: PropMPS
* Theorems: `C21_post_select_projects`, `C21_recombine_after_post_select`, `C21_recorded_length_refuted`

### C22 zero padding does not change the state (proved)

* Modelled and proved: entry functions extended by zero; sums split.
* Outcome: expand including its final left_canonicalise, mps_pad; shrinking raises ValueError.
* Files: PropStruct
* Theorems: `C22_expand`, `C22_expand_structure`, `C22_expand_cannot_shrink`, `C22_mps_pad`

### C23 links describes a closed contraction (proved)

* Modelled and proved: count of every label in the generated lists; arithmetic.
* Outcome: label lists of links(k) with and without operator for all k>=1; the network without operator is <psi|psi>.
* Files: PropEk
* Theorems: `C23_links`, `C23_links_no_operator`, `C23_norm_network`

### C24 rho is the reduced density matrix (proved)

* Modelled and proved: as C09 with open physical legs.
* Outcome: partial trace for all contiguous blocks; E_k(O)=Tr(rho O); for product states the list of one-site matrices, up to the norms of the other sites.
* Files: PropEk
* Theorems: `C24_rho_mixed`, `C24_rho`, `C24_E_k_is_trace`, `C24_rho_product`

### C25 memo tables of F1/F2 never confuse two site pairs (proved)

* Modelled and proved: decimal strings from Coq's own nat->decimal conversion; injectivity for sites < 11, collisions from 12 sites on.
* Outcome: Memo transparent up to 11 sites and refuted beyond; christoffel's second call refuted.
* Files: PropMisc
* Theorems: `C25_pair_keys`, `C25_triple_keys`, `C25_memo_transparent`, `C25_long_chain_refuted`, `C25_christoffel_refuted`

### C26 tangent vectors survive packing into coordinates (proved)

* Modelled and proved: ModelTan: tangent_space_dims, extract_tangent_vector and import_tangent_vector with Cholesky, inverse and null space as library parameters. Offset arithmetic over lists of blocks by induction; the projector identities of C53 give import o extract. The dimension of each block (C26_count) is a trace argument in characteristic 0.
* Outcome: chains whose sites with empty tangent space come first; the other order is refuted (import raises ValueError). numpy.linalg.cholesky, inv and scipy null_space are oracles with contracts.
* Files: PropTan, PropTdvp
* Theorems: `C26_extract_import`, `C26_import_extract`, `C26_dims`, `C26_order_refuted`, `C26_count`

### C27 ncon computes the Einstein summation, for every contraction order (proved)

* Modelled and proved: ncon's loop over general-rank tensors; invariant: Einstein sum of the current network is constant.
* Outcome: ncon of ncon.py modelled completely for numpy arrays (component search, joining with trivial legs, contraction loop, traces, final transposition, set order as an oracle).
* Files: PropNcon
* Theorems: `C27_einstein_sum`, `C27_default_orders`, `C27_order_independent`

### C28 ncon rejects malformed networks (proved)

* Modelled and proved: validator as in the source; iff with a declarative well-formedness predicate.
* Outcome: the check is exact; label 0 escapes it (C28_label_zero_refuted); unchecked traces over unequal legs are silent (C28_unchecked_trace_refuted).
* Files: PropNcon
* Theorems: `C28_check_exact`, `C28_ncon_validates`, `C28_label_zero_refuted`, `C28_unchecked_trace_refuted`

### C29 tensor transposes are involutions (proved)

* Modelled and proved: axis reversal on index lists.
* Outcome: T, H, C for arrays of every rank; below rank 2 IndexError.
* Files: PropTensor
* Theorems: `C29_T`, `C29_H`, `C29_short`, `C29_T_involution`, `C29_H_involution`, `C29_C_involution`, `C29_H_is_C_of_T`, `C29_H_product`

### C30 Kronecker index helpers address the right entries (proved)

* Modelled and proved: kron as div/mod; index arithmetic.
* Outcome: loc for all rectangular shapes; loc_3 and split_up as they are (exchanged factors); documented orders refuted; split_up_3 refuted for d=3.
* Files: PropTensor
* Theorems: `C30_loc`, `C30_loc_d`, `C30_loc_3`, `C30_split_up`, `C30_split_up_kron`, `C30_split_up_without_d`, `C30_split_up_3`, `C30_loc_3_order_refuted`, `C30_split_up_doc_refuted`, `C30_split_up_3_dim_refuted`

### C31 partial traces trace out the right subsystems (proved)

* Modelled and proved: index lists over subsystems.
* Outcome: partial_trace and rhoA entry by entry, trace, order of keep, keep all; empty keep recorded.
* Files: PropTensor
* Theorems: `C31_partial_trace`, `C31_trace_preserved`, `C31_keep_all`, `C31_keep_order`, `C31_rhoA`, `C31_rhoA_hermitian`, `C31_keep_nothing`

### C32 uqr/urq are factorisations with non-negative diagonal (proved)

* Modelled and proved: sign matrix; refuted for zero diagonal.
* Outcome: uqr for all shapes and urq for non-tall input, uniqueness; rank-deficient and tall cases refuted.
* Files: PropDecomp
* Theorems: `C32_uqr`, `C32_uqr_unique`, `C32_urq`, `C32_urq_unique`, `C32_uqr_zero`, `C32_uqr_refuted`, `C32_urq_tall_refuted`

### C33 embed/deembed and unitary completion (proved)

* Modelled and proved: null-space oracle; block matrices.
* Outcome: embed, deembed, direct_sum, unitary_extension; requested size below the isometry refuted.
* Files: PropDecomp
* Theorems: `C33_embed`, `C33_deembed_embed`, `C33_deembed_size`, `C33_direct_sum`, `C33_unitary_extension`, `C33_requested_size_refuted`

### C34 a trajectory's history is the sequence of iterated steps (proved)

* Modelled and proved: Trajectory record and integrator loops over an abstract step map; induction over grids and call lists.
* Outcome: All three integrators.
* Files: PropTraj
* Theorems: `C34_history`, `C34_eulerint_starts_canonical`, `C34_rk4int_starts_canonical`, `C34_history_only_grows`, `C34_short_grids`

### C35 the rk4 step is the classical Runge-Kutta combination (proved)

* Modelled and proved: abstract module over the scalars; algebraic identity.
* Outcome: fTDVP's step proved; iTDVP's refuted.
* Files: PropTraj
* Theorems: `C35_classical_step`, `C35_taylor`, `C35_itdvp_refuted`

### C36 bond dimensions recorded per history entry stay aligned (proved)

* Modelled and proved: lists Ds/history; invariant over op lists; refutation for clear.
* Outcome: Proved for runs without clear; clear and eulerint after expand refuted.
* Files: PropTraj
* Theorems: `C36_entries_decode`, `C36_lengths`, `C36_clear_refuted`, `C36_expand_then_eulerint_refuted`

### C37 saving runs never overwrites an earlier run (proved)

* Modelled and proved: run-number computation from the last character of directory names.
* Outcome: First ten proved, eleventh fails.
* Files: PropMisc
* Theorems: `C37_run_names`, `C37_other_names_refuted`

### C38 the Lyapunov estimate is the running mean (proved)

* Modelled and proved: running mean recurrence over a field (rationals).
* Outcome: Running means.
* Files: PropTraj
* Theorems: `C38_running_means`

### C39 transfer-matrix operators match their dense form (proved)

* Modelled and proved: index-level contraction; refutation for complex tensors.
* Outcome: mv and mvr are the dense matrix and its transpose; adjoint for real tensors; refuted for complex ones.
* Files: PropImps
* Theorems: `C39_dense`, `C39_adjoint_for_real_tensors`, `C39_bad_input_raises`, `C39_adjoint_refuted`

### C40 Map's right action is the adjoint of its left action (proved)

* Modelled and proved: same machinery.
* Outcome: dense form, adjoint action.
* Files: PropImps
* Theorems: `C40_dense`, `C40_adjoint`

### C41 n_body embeds an operator at the stated site (proved)

* Modelled and proved: kron folds.
* Outcome: n_body for square operators, with and without d; int(log(.)) is an oracle.
* Files: PropSpin
* Theorems: `C41_n_body`, `C41_n_body_low`, `C41_n_body_high`, `C41_commute`, `C41_multiply`, `C41_n_body_d`

### C42 spins(S) satisfies the angular-momentum algebra for every spin (proved)

* Modelled and proved: entries with sqrt over the reals.
* Outcome: all spins; square roots, 1/2 and i are constants with a contract, instantiated by the complex numbers over Coq's reals.
* Files: PropSpin
* Theorems: `C42_spins`, `C42_casimir`, `C42_weights`, `C42_ladders`, `C42_ladders_none`, `C42_CR`, `C42_CR_spins`, `C42_paulis`

### C43 su(N) returns an orthogonal generator basis for every N (proved)

* Modelled and proved: generator lists over complex numbers.
* Outcome: all N; also completeness.
* Files: PropSpin
* Theorems: `C43_su`, `C43_complete`

### C44 angle parametrisations and gates are normalised (proved)

* Modelled and proved: trigonometric identities over the reals; permutation signs.
* Outcome: all angle lists and ranks; angles enter through their cosine and sine.
* Files: PropSpin
* Theorems: `C44_Nsphere`, `C44_Nsphere_entries`, `C44_gates`, `C44_gates_unitary`, `C44_CRy`, `C44_levi_civita`

### C45 Hamiltonian: every view describes the same operator (proved)

* Modelled and proved: operators as matrices on configurations; transfer of the 5-state automaton.
* Outcome: All dictionaries, all lengths. to_mpo, to_matrix, to_matrices, to_full and the constructor are modelled; from_matrix (always TypeError) is not. Three claims of the docstring/API are refuted with witnesses.
* Files: PropHam
* Theorems: `C45_init`, `C45_to_matrices`, `C45_to_matrices_two`, `C45_to_mpo`, `C45_views_agree`, `C45_documented`, `C45_to_full`, `C45_to_full_strings`, `C45_two_sites_refuted`, `C45_docstring_refuted`

### C46 group_legs / ungroup_legs round trip (proved)

* Modelled and proved: shape/index lists with permutations.
* Outcome: negative axes and reshape sizes of -1 are not modelled; an empty group raises TypeError, legs that are no partition ValueError.
* Files: PropNp
* Theorems: `C46_group`, `C46_roundtrip`, `C46_errors`, `C46_inverse`

### C47 PEPS transpose and flips are involutions preserving the state (proved)

* Modelled and proved: lists of lists; amplitude as sum over bond assignments.
* Outcome: states, arrays and double application for all lattices; the recorded centre of flips of non-square data-built PEPS is refuted.
* Files: PropPeps
* Theorems: `C47_T`, `C47_R`, `C47_U`, `C47_T_T`, `C47_R_R`, `C47_U_U`, `C47_centre_refuted`

### C48 PEPS addition represents the sum of two states (proved)

* Modelled and proved: ModelPeps: block sums on a two-dimensional lattice. Amplitude of a sum as a sum over bond assignments, split by an induction over rows and columns.
* Outcome: whenever the recorded Lx, Ly are columns and rows (random, or square data); AssertionError for recorded sides of 1; refuted for non-square PEPS built from data.
* Files: PropPeps
* Theorems: `C48_add`, `C48_narrow`, `C48_nonsquare_refuted`

### C49 MPO multiplication composes the operators (proved)

* Modelled and proved: transfer invariant on MPO chains.
* Outcome: entries of the product operator and recombine(A*B)=recombine(A)@recombine(B) for two or more sites.
* Files: PropPeps
* Theorems: `C49_mul`, `C49_recombine`, `C49_matrices`

### C50 PEPS contraction of rows and columns preserves amplitudes (proved)

* Modelled and proved: fold invariants.
* Outcome: recombine, row_contract, col_contract and contract for all lattices; a block is numbered column by column.
* Files: PropPeps
* Theorems: `C50_recombine`, `C50_rows`, `C50_cols`, `C50_block`

### C51 canonical-form predicates decide what they claim (proved)

* Modelled and proved: predicates over exact equality (tolerance is a parameter).
* Outcome: Soundness and completeness for every tolerance and every absolute value satisfying the listed laws; the environment predicates are characterised for all chains and shown to ignore the last site (refutation). Broadcasting of unequal shapes is not modelled.
* Files: PropTests
* Theorems: `C51_is_right_canonical`, `C51_is_left_canonical`, `C51_is_right_env_canonical`, `C51_is_left_env_canonical`, `C51_is_full_rank`, `C51_has_trace_1`, `C51_last_site_refuted`

### C52 thermofield-double symmetry (proved)

* Modelled and proved: index maps on sqrt dimensions.
* Outcome: fTFD.from_fMPS, symmetry and symmetrise; reshape and transpose as in ModelNp.
* Files: PropTFD
* Theorems: `C52_symmetry`, `C52_symmetry_error`, `C52_involution`, `C52_symmetrise_fixed`, `C52_double_fixed`, `C52_double_amplitudes`, `C52_double_uniform`, `C52_symmetrise_double`

### C53 tangent-space gauge projector (proved)

* Modelled and proved: linear algebra over the star ring with null-space oracle.
* Outcome: left projector for diagonal real environments, which are the ones get_envs returns; refuted for non-diagonal environments; right projector: self-adjoint and orthogonal with weight r*chol(r), gauge condition refuted.
* Files: PropTan
* Theorems: `C53_left`, `C53_left_default`, `C53_nondiagonal_refuted`, `C53_right`, `C53_right_refuted`

### C54 SVD wrapper falls back exactly once (proved)

* Modelled and proved: drivers as partial functions; case analysis.
* Outcome: All outcomes.
* Files: PropMisc
* Theorems: `C54_driver_choice`, `C54_failures`

### C55 energy is the sum of local terms for canonical chains (proved)

* Modelled and proved: environments with the diag(diag(re .)) step; C09 machinery.
* Outcome: get_envs returns the true environments and energy the mean of <psi|h_m|psi> when all environments are diagonal; false otherwise (C55_energy_refuted: off-diagonal parts are dropped).
* Files: PropEnergy
* Theorems: `C55_get_envs`, `C55_energy`, `C55_energy_right_canonical`, `C55_energy_refuted`

### C56 product states and extend are tensor products (proved)

* Modelled and proved: ModelMPS: product states and extend. Amplitudes by induction on the chain.
* Outcome: product states and extend.
* Files: PropMPS
* Theorems: `C56_product_state_amplitudes`, `C56_extend_tensor_product`

### C57 attributes of constructed and canonicalised objects (proved)

* Modelled and proved: ModelMPS, ModelCanon: the constructor and the attributes after canonicalisation; invariants of the sweeps.
* Outcome: Attributes.
* Files: PropAttr
* Theorems: `C57_constructor`, `C57_constructor_fails`, `C57_left_canonicalise_limit`, `C57_right_canonicalise_limit`

### C58 itemwise arithmetic acts on the tensor entries (proved)

* Modelled and proved: ModelMPS: itemwise operators; entry by entry, and the state of a product with a scalar.
* Outcome: Entrywise.
* Files: PropAttr
* Theorems: `C58_itemwise_add`, `C58_itemwise_sub`, `C58_itemwise_mul`, `C58_itemwise_mul_state`

### C59 local_overlap is the overlap of reduced density matrices (proved)

* Modelled and proved: ModelEk: the three branches of local_overlap through rho and ncon; trace of the product of reduced density matrices.
* Outcome: all three branches of local_overlap.
* Files: PropEk
* Theorems: `C59_local_overlap`, `C59_local_overlap_product`, `C59_local_overlap_product_other`

### C60 get_null_space returns an orthonormal basis of the kernel (proved)

* Modelled and proved: ModelDecomp: get_null_space over a full-QR oracle; orthonormality and completeness from unitarity of Q.
* Outcome: get_null_space over a full-QR oracle.
* Files: PropDecomp
* Theorems: `C60_null_vectors`, `C60_complete`

### C61 rotate_to_hermitian recovers the Hermitian matrix up to sign (proved)

* Modelled and proved: ModelDecomp: rotate_to_hermitian over division and square-root oracles; phase of the trace.
* Outcome: rotate_to_hermitian over division and square-root oracles.
* Files: PropDecomp
* Theorems: `C61_rotate_to_hermitian`

### C62 swap symmetrisation and the swap-symmetric generators (proved)

* Modelled and proved: ModelLie: swap_symmetrise, swap_antisymmetrise, slambdas as lists of matrices; entry computations for all dimensions, completeness by expansion.
* Outcome: swap_antisymmetrise refuted as an antisymmetriser.
* Files: PropLie
* Theorems: `C62_symmetrise`, `C62_is_swap_symmetric`, `C62_antisymmetrise_refuted`, `C62_slambdas`, `C62_slambdas_complete`

### C63 two-site generators and spinors satisfy their algebra (proved)

* Modelled and proved: ModelLie: lambdas, ferro, antiferro; algebra of the generators in every scalar ring with i and 1/2.
* Outcome: ferro refuted as a Pauli or spin triple.
* Files: PropLie
* Theorems: `C63_lambdas`, `C63_lambdas_complete`, `C63_antiferro`, `C63_ferro`, `C63_ferro_refuted`

### C64 Lie algebra components and their embedding (proved)

* Modelled and proved: ModelLie: components and insu2N; linear expansion in an orthogonal basis.
* Outcome: insu2N for the three documented places.
* Files: PropLie
* Theorems: `C64_components`, `C64_components_inverse`, `C64_components_real`, `C64_insu2N`

### C65 gates built from Lie algebra vectors are unitary (proved)

* Modelled and proved: ModelExp: expm as a library parameter with a contract; unitarity from the adjoint and homomorphism laws.
* Outcome: expm is an oracle with a contract (extensional, shape, adjoint, homomorphism on commuting matrices, intertwiners); example over the complex numbers.
* Files: PropExp
* Theorems: `C65_generator`, `C65_unitary`, `C65_U4`, `C65_U4s`, `C65_SU_2N`, `C65_errors`

### C66 coordinates of a unitary and comparison up to phase (proved)

* Modelled and proved: ModelExp: extractv, to_new_v, equal_up_to_phase; expansion in the generator basis.
* Outcome: equal_up_to_phase misses equal rays with a vanishing first entry (C66_equal_up_to_phase_refuted).
* Files: PropExp
* Theorems: `C66_extractv`, `C66_to_new_v`, `C66_equal_up_to_phase`, `C66_equal_up_to_phase_refuted`

### C67 snake recombination lists the amplitudes along the snake (proved)

* Modelled and proved: ModelPeps: recombine along the snake; invariant over rows, with the reversal of every second row.
* Outcome: for at most one wide bond between two rows; refuted with two.
* Files: PropPeps
* Theorems: `C67_snake`, `C67_snake_refuted`

### C68 a PEPS made of an MPS holds its state (proved)

* Modelled and proved: ModelPeps: from_mps and the reshaping into rows; amplitudes by induction over rows.
* Outcome: Lx>1 dividing the length.
* Files: PropPeps
* Theorems: `C68_from_mps`, `C68_square`, `C68_state`

### C69 PEPS overlaps are inner products (proved)

* Modelled and proved: ModelPeps: overlap and full_overlap; column-by-column contraction as sum over configurations.
* Outcome: overlap for two or more columns (a single column fails, refuted), full_overlap always.
* Files: PropPeps
* Theorems: `C69_overlap`, `C69_full_overlap`, `C69_single_column_refuted`

### C70 PEPS gates and expectation values on one site (proved)

* Modelled and proved: ModelPeps: apply and E on one site.
* Outcome: all sites and operators.
* Files: PropPeps
* Theorems: `C70_apply`, `C70_E`

### C71 PEPS expectation values on a block (proved)

* Modelled and proved: ModelPeps: E_k on a block; order of the sites of the block.
* Outcome: for the order column by column; the documented reading order is refuted.
* Files: PropPeps
* Theorems: `C71_E_k`, `C71_reading_order_refuted`

### C72 fixed points of the transfer matrix (proved)

* Modelled and proved: ModelImps: eigs and rotate_to_hermitian on Arnoldi output with a contract; eigenvector equations, Hermiticity, normalisation.
* Outcome: eigenvectors, Hermitian up to a common sign, tr(l r)=1; pairing of the layers proved for symmetric r, refuted in general; bond dimension one raises TypeError.
* Files: PropImps
* Theorems: `C72_eigs`, `C72_hermitian`, `C72_pairing_for_symmetric_r`, `C72_bond_dimension_one_raises`, `C72_pairing_refuted`

### C73 canonical forms of infinite MPS (proved)

* Modelled and proved: ModelImps: canonicalise into the forms of Vidal, right, left, mixed, given contracts for Cholesky, SVD, inverse and Arnoldi.
* Outcome: given the contracts of Cholesky, SVD, inverse and Arnoldi; the mixed form has transfer eigenvalue <l|r>, which is one for symmetric r.
* Files: PropImps
* Theorems: `C73_vidal`, `C73_right`, `C73_left`, `C73_mixed`

### C74 expectation values of infinite MPS (proved)

* Modelled and proved: ModelImps: E, Es and ivMPS.E; compared with the expectation value in the network with fixed points.
* Outcome: default form right; the forms r, l, m and ivMPS.E compute the transposed operator (refuted).
* Files: PropImps
* Theorems: `C74_default`, `C74_right_transposed`, `C74_left_transposed`, `C74_mixed_transposed`, `C74_Es`, `C74_vidal_transposed`, `C74_right_refuted`

### C75 energy of infinite MPS (proved)

* Modelled and proved: ModelImps: energy; the value it computes and the condition under which it is right.
* Outcome: value computed is with the transposed r; right for symmetric r; refuted in general.
* Files: PropImps
* Theorems: `C75_energy`, `C75_energy_for_symmetric_r`, `C75_energy_refuted`

### C76 eigenvector predicates of Map (proved)

* Modelled and proved: ModelImps: the predicates as decisions over exact equality.
* Outcome: what the predicates decide; right at eigenvalue one; refuted otherwise.
* Files: PropImps
* Theorems: `C76_right`, `C76_left`, `C76_right_one`, `C76_refuted`

### C77 construction, indexing and storage of infinite MPS (proved)

* Modelled and proved: ModelImps: flat lists for serialisation, records for objects.
* Outcome: round trips; 1-based access refuted.
* Files: PropImps
* Theorems: `C77_serialize`, `C77_serialize_real`, `C77_store_load`, `C77_init`, `C77_call_refuted`

### C78 dA_dt solves the time-dependent variational principle (proved)

* Modelled and proved: ModelTdvp: left_transfer and dA_dt (fullH=False) network by network through the ncon model. Each of the three networks times the right environment is shown to be the matrix element of one term between the state with a row of the projector in place of the tensor and the state; terms to the right vanish by the gauge condition; the sum over terms is the projected gradient. Sites without tangent space: the null space is empty by a trace count.
* Outcome: dA_dt with fullH=False; cholesky, inverse and null space are library parameters with contracts; the initial cache and the dtype are not modelled. Environments must be diagonal (see C55).
* Files: PropTdvp
* Theorems: `C78_rates`, `C78_gauge`, `C78_tdvp`

### C79 the flow of dA_dt conserves norm and energy (proved)

* Modelled and proved: Consequences of C78: the gauge condition makes all overlaps but one vanish; the projector is self-adjoint, so the energy derivative is im times a real number plus its conjugate.
* Outcome: Derivatives of norm and energy along the rates of dA_dt; the integrators that use them are C34 and C35.
* Files: PropTdvp
* Theorems: `C79_norm`, `C79_energy`

### C80 Map.right_fixed_point and left_fixed_point return eigenvectors (proved)

* Modelled and proved: ModelImps right_fixed_point, left_fixed_point, is_right_eigenvector, is_left_eigenvector; eigs is an oracle returning eigenpairs. The phase found by rotate_to_hermitian makes the first entry real; sign removes its sign.
* Outcome: Eigenvalue equations, sign, normalisation; the tests use the reciprocal eigenvalue (refuted for the eigenvalue).
* Files: PropImpsFix
* Theorems: `C80_right`, `C80_left`, `C80_right_test`, `C80_left_test`, `C80_test_refuted`

### C81 F2 returns the matrix elements of the second derivatives of the state (proved)

* Modelled and proved: ModelJac has F2 with its four network cases per term (neighbouring sites, term at site i, term ending at i, term to the left), the default lists of roots, the wrap-around of icl[i-1] and the transposition for j < i; fullH, testing and the caches are left out (the caches are in C25). SpecJac defines the directions (frame), the element second_elem from the amplitudes, and what the lists of roots must be. C81_F2 gives the entries, C81_frame and C81_span that the directions are an orthonormal frame, C81_default covers the default arguments, C81_norm_refuted is the chain of norm 2. The proof evaluates each network and compares it with the matrix element split at the sites involved; terms to the right of site i vanish by the gauge condition.
* Outcome: testing=False, fullH=False; envs default; the frame is orthonormal only for normalised states (C81_norm_refuted).
* Files: PropJac
* Theorems: `C81_frame`, `C81_span`, `C81_F2`, `C81_default`, `C81_norm_refuted`

### C82 christoffel returns minus the overlaps of second derivatives with first derivatives (proved)

* Modelled and proved: ModelChrist has christoffel for a fresh id: the zero cases, the open and the contracted network, the sign and the transposition for j < i, ungauge_i and ungauge_j; the other combinations of closed are left out, the caches are in C25. SpecChrist defines tangent directions, the dual basis of their coordinates, the direction an array represents, and the element as an overlap of states. C82_open and C82_closed give the entries, C82_dual that the dual bases exist, C82_frame that the directions are tangent and what l X r represents. The proof shows that the projector with the inverse environment is the dual basis, that it is unique, and evaluates the overlaps of chains changed at two sites; the vanishing cases follow from the gauge condition.
* Outcome: christoffel with nothing closed and with the last index closed; fresh id (caches: C25).
* Files: PropChrist
* Theorems: `C82_open`, `C82_dual`, `C82_closed`, `C82_frame`

### C83 Arithmetic, copies, comparison and conversion of infinite MPS act item by item on the unit cell (proved)

* Modelled and proved: Induction over the zipped cells; the transfer map of the scaled tensor by linearity; to_iMPS by collapsing the diagonal sums.
* Outcome: allclose is a predicate given from outside; the pitfall with cells of different length is C83_periods_refuted.
* Files: PropImpsA
* Theorems: `C83_add`, `C83_sub`, `C83_mul`, `C83_div`, `C83_scaled_transfer`, `C83_copy`, `C83_eq`, `C83_to_iMPS`, `C83_periods_refuted`

### C84 Spin, Pauli and ladder operators on a chain obey the spin algebra at their site and commute elsewhere (proved)

* Modelled and proved: n_body places a matrix at its site, and products and sums of placed matrices are placed products and sums, so every relation reduces to the one for the matrices of C31 and C51.
* Outcome: C84_ladders_unknown is the AttributeError for other spins.
* Files: PropNbody
* Theorems: `C84_spins`, `C84_paulis`, `C84_ladders`, `C84_ladders_unknown`, `C84_sites_commute`

### C85 Product states, append and states turned into operators have the amplitudes one expects (proved)

* Modelled and proved: Amplitudes of a concatenation (C08), the overlap of C01, and for from_mps the sum over all bonds written as a product over sites.
* Outcome: C85_apply combines from_mps with the operator product of C49, C85_from_mps_column with recombine.
* Files: PropProd
* Theorems: `C85_product_state_overlap`, `C85_product_states`, `C85_append`, `C85_from_mps`, `C85_from_mps_column`, `C85_apply`

### C86 k_local_approx_overlap is the mean of the overlaps of reduced density matrices over all windows of k sites (proved)

* Modelled and proved: The invariant 'norm one, mixed form around the recorded centre, same state up to a phase' is kept by every local_overlap (C59); for product states the norm outside the window is one because every single tensor has norm one.
* Outcome: self and other are taken to be different objects; the error in the division oracle stands for a missing quotient.
* Files: PropProd
* Theorems: `C86_k_local`, `C86_no_k`, `C86_too_long`

### C87 match_gauge_to changes the gauge but not the state, and makes every tensor overlap positive (proved)

* Modelled and proved: ModelGauge models the loop from the last site to the first with scipy.linalg.polar as a parameter and its definition as contract (SpecGauge.polar_ok). Invariant over the loop: the state is kept, the bonds on the right agree with b and the overlaps there are positive.
* Outcome: positive is written as X^dagger X; for an empty physical range or a chain without sites nothing is claimed beyond wf.
* Files: PropGauge
* Theorems: `C87_match_gauge`

### C88 entanglement_entropy is the entropy of the spectrum of the reduced density matrix (proved)

* Modelled and proved: ModelGauge.entanglement_entropy on top of the canonicalisation of ModelCanon; the absolute value, the comparison with 1e-8 and the logarithm are parameters. The bond matrices are related to the reduced density matrix of the cut by the isometries on both sides.
* Outcome: the argument thresh is ignored by the code; abs, log and the comparison are arbitrary functions in the theorem.
* Files: PropGauge
* Theorems: `C88_entanglement_entropy`

### C89 vfMPS.from_fMPS followed by to_fMPS gives the canonical tensors back; item access and comparison of states (proved)

* Modelled and proved: ModelGauge models the vfMPS object with an optional data attribute, numpy's inv as a parameter with its definition as contract, and allclose as an arbitrary predicate that may raise.
* Outcome: C89_constructor_refuted and C89_eq_length_refuted are the negative parts; negative indices are not modelled.
* Files: PropGauge
* Theorems: `C89_vidal_round_trip`, `C89_constructor_refuted`, `C89_items`, `C89_eq`, `C89_ne`, `C89_eq_length_refuted`

### C90 dA_dt(H, fullH=True) is the time-dependent variational principle for a Hamiltonian given as one matrix (proved)

* Modelled and proved: ModelFull mirrors the fullH branch: reshape, the labels of links() with the bond right of the site opened, the bra layer with the projector and the inverse environment, ncon. ProofFull evaluates a network with one bond cut open, ProofFull2 the labels, ProofFull3 the whole network for every site, ProofFull4 turns it into the gradient, ProofFull5 proves the variational principle and the conservation laws, ProofFull6 the agreement with the two-site terms.
* Outcome: prs=None (the projectors computed by left_null_projector); self.e is not set on this path.
* Files: PropFull
* Theorems: `C90_rates`, `C90_tdvp`, `C90_norm`, `C90_energy`, `C90_agrees`

### C91 Exact evolution and the read-outs of a trajectory (proved)

* Modelled and proved: ModelEd.v models edint, ed_evs, ed_energies, mps_list, mps_evs and loschmidt; the exponential is an oracle with the contract of SpecExp.v. Induction on the number of steps gives the recorded vectors (ProofEd.v, ProofEd2.v). exp of an anti-Hermitian matrix is unitary and commutes with whatever commutes with the generator, so expectations are carried from step to step. The read-outs of ordinary runs use the run invariant of C36 (ProofEd3.v).
* Outcome: expm_multiply is modelled as the exponential applied to the vector; an exception in the middle is only identified, not its half-updated object; the empty list of terms is an error value.
* Files: PropEd
* Theorems: `C91_edint`, `C91_conserved`, `C91_energies`, `C91_ed_evs`, `C91_terms`, `C91_readback`, `C91_one_state_per_time_refuted`, `C91_filled`, `C91_mps_evs`, `C91_loschmidt`, `C91_loschmidt_expand_refuted`

### C92 The Heisenberg and Ising chains of qmb.py and fMPO.py (proved)

* Modelled and proved: Kronecker products are strings of site matrices (C56 vocabulary); the MPO by induction on the suffix, components X and Y of the raising and lowering rows; local terms by the regrouping of C45. Entrywise products of strings at neighbouring sites vanish unless both matrices have a diagonal.
* Outcome: The intended claim is refuted for the code as it stands (C92_documented_refuted, C92_shadowed, C92_shadowed_locals); the model carries which tensor is bound as a boolean, true for the code. numpy's kron of qutip objects giving a plain array is an assumption about those libraries.
* Files: PropQmb
* Theorems: `C92_shadowed`, `C92_shadowed_locals`, `C92_documented_refuted`, `C92_full`, `C92_locals`, `C92_mpo`, `C92_mpo_short`, `C92_ising`, `C92_ising_same`, `C92_XX`, `C92_site`

### C93 The example states (proved)

* Modelled and proved: ModelExam/SpecExam/ProofExam: the tensors of mps_examples.py branch by branch, with the modelled left_canonicalise (C12) applied; normalised_of states that the result has norm one and that the documented vector is a multiple of it with squared modulus 2 or 4. AKLT: spin2 is the projection of A^i A^j on the five spin-2 states with integer Clebsch-Gordan coefficients.
* Outcome: LinAlgError of an oracle is passed on. bell(2) is documented 11-00 and is minus that before canonicalisation, the same state. AKLT_refuted is over the complex numbers (standard real-number axioms).
* Files: PropExam
* Theorems: `C93_bell`, `C93_bell_orthogonal`, `C93_comp_z`, `C93_comp_x`, `C93_comp_x_orthogonal`, `C93_comp_x_docstring`, `C93_AKLT`, `C93_AKLT_refuted`, `C93_AKLT_fixed`

### C94 The symplectic basis of the linearised dynamics (proved)

* Modelled and proved: ModelExam models both as the code builds them (blocks; assignment of two entries per pass of the loop), SpecExam has stacked, interleaved and omega as plain functions.
* Files: PropExam
* Theorems: `C94_changebasis`, `C94_orthogonal`, `C94_sympmat`, `C94_blocks`

### C95 Read-outs and dynamics of thermofield doubles (proved)

* Modelled and proved: ModelDouble follows the code (kron with eye, tensordot on axis 0, mixed_canonicalise of C12); half_op and onsite_elem in SpecDouble are the operators meant, expect1 and melem the expectation values and matrix elements of earlier properties. The dynamics follow from the variational principle C78 applied to the matrices the code builds.
* Outcome: E with an operator of one column (broadcast) is not modelled.
* Files: PropDouble
* Theorems: `C95_Es`, `C95_E`, `C95_double`, `C95_halves_agree`, `C95_dynamics`, `C95_dynamics_refuted`, `C95_transpose_refuted`

### C96 The symmetric and antisymmetric null spaces of get_vL (proved)

* Modelled and proved: ModelDouble: fs by reshape and transpose on row-major arrays, block_diag, the two half sums; SpecDouble: phys_exch, exch of C52.
* Outcome: 1/2 is any scalar with half + half = 1.
* Files: PropDouble
* Theorems: `C96_projectors`, `C96_split`, `C96_exchange_refuted`

### C97 right_transfer carries an operator to the right, up to an exchange of layers (proved)

* Modelled and proved: right_transfer is modelled with the labels it gives to ncon, for any number of axes of op. ModelRest.v, SpecRest.v (carried, alternating), ProofRest.v; the loop by induction over the sites: one more site on the left conjugates the rest of the chain and exchanges its ends.
* Outcome: The uncorrected claim is refuted by C97_right_transfer_refuted.
* Files: PropRest
* Theorems: `C97_right_transfer`, `C97_right_transfer_real`, `C97_one_step`, `C97_right_transfer_refuted`

### C98 rho_proj gives the transition matrix of two product states (proved)

* Modelled and proved: ModelRest.v (squeeze, @ and ncon of vectors, reduce(kron)), ProofRest2.v: the products over sites are the sums over configurations, by induction.
* Outcome: The uncorrected claim is refuted by C98_rho_proj_refuted. Blocks of neighbouring sites in order; squeeze of tensors that are not vectors is reported as ValueError.
* Files: PropRest
* Theorems: `C98_rho_proj`, `C98_rho_proj_real`, `C98_rho_proj_none`, `C98_rho_proj_refuted`

### C99 random builds a chain of the requested shape (proved)

* Modelled and proved: The draws are an arbitrary function. ModelRest.v, ProofRest3.v, with create_structure of C16's model; norm of the product state from cos^2+sin^2=1 and |e^{if}|=1.
* Outcome: C99_dimension_refuted, C99_centre_refuted. The angles of the product state are arbitrary; how they are drawn is not modelled.
* Files: PropRest
* Theorems: `C99_random`, `C99_random_product`, `C99_random_one`, `C99_dimension_refuted`, `C99_centre_refuted`

### C100 apply_two_site_isometry merges two sites (proved)

* Modelled and proved: ModelRest.v with the swap network of ModelTwo.v, ProofRest3.v.
* Outcome: C100_isometry_refuted. Proved for neighbouring sites; the swaps of distant sites are modelled but no theorem is about them.
* Files: PropRest
* Theorems: `C100_isometry`, `C100_same_site`, `C100_isometry_refuted`

### C101 ed_OTOC is the squared norm of a commutator (proved)

* Modelled and proved: ModelOtoc models ed_OTOC with the matrix exponential as a contract-governed parameter; SpecOtoc defines the action of a matrix on amplitude functions and the squared norm of the result; ProofOtoc moves one commutator to the other side of the scalar product (it is anti-Hermitian). The refutation is a nilpotent V.
* Outcome: C101_refuted: V not Hermitian.
* Files: PropOtoc
* Theorems: `C101_otoc`, `C101_nonneg`, `C101_start`, `C101_conserved`, `C101_zero`, `C101_short`, `C101_terms`, `C101_refuted`, `C101_example`

### C102 Trajectories of infinite states and their Loschmidt rates (proved)

* Modelled and proved: ModelItraj models the class with the vector field dA_dt as a parameter and the library calls of iMPS as in C60 ff.; induction over the time grid (orbit) and over the history (Loschmidt loop, in which mps_0 is canonicalised in every pass; gauge relations compose). good_envs asks that the environments found are Hermitian with a non-negative eigenvalue. Examples run two Euler steps and two Loschmidt rates.
* Outcome: C102_rk4_refuted: rk4 differs from a Runge-Kutta step on constant fields; dA_dt is a parameter.
* Files: PropItraj
* Theorems: `C102_eulerint`, `C102_rk4int`, `C102_short_grids`, `C102_loschmidts`, `C102_no_history`, `C102_rk4_refuted`

### C103 renyi is the second Renyi entropy, and what the disentangler returns (proved)

* Modelled and proved: ModelDis models E2 and renyi through the models of tensordot and ncon (C27), the loops of the disentangler with fuel, polar, the restarts, log and the tolerance test as parameters (polar_ok: the first factor is unitary). ProofDis evaluates both networks as Einstein sums; ProofDis2 is an invariant of the loop.
* Outcome: C103_unitary_refuted; C103_never_returns for max_iter < 3.
* Files: PropDis
* Theorems: `C103_renyi`, `C103_halves`, `C103_local`, `C103_product`, `C103_shape`, `C103_disentangler`, `C103_never_returns`, `C103_passes`, `C103_unitary_refuted`, `C103_restart`

### C104 find_ground_state is a descent through left canonical states (proved)

* Modelled and proved: ModelGround models the loop with dA_dt (and the energy it leaves in the attribute e) and the test norm(dA) < tol as parameters; induction over the number of iterations with the lemmas of C102.
* Outcome: C104_last_energy_refuted; dA_dt is a parameter.
* Files: PropGround
* Theorems: `C104_descent`, `C104_random`, `C104_random_entries`, `C104_no_iterations`, `C104_last_energy_refuted`

### C105 mps_energies is the energy of every stored state (proved)

* Modelled and proved: The backward sweep of left_canonicalise (C12) gives diagonal right environments and isometries on the left, which is the hypothesis of C55; together with the scaling of the mean value and the decoding of the history (C36) this gives the energies. The refutation is the run of C36 that expands from 1 to 2.
* Outcome: left_canonicalise then energy for both forms of H; one energy per stored state of a run; deserialize with a constant bond dimension; refuted: deserialize after expand.
* Files: PropEns
* Theorems: `C105_canonicalise_then_energy`, `C105_mps_energies`, `C105_nothing_to_report`, `C105_deserialize`, `C105_deserialize_refuted`

### C106 effH gives the effective Hamiltonian of a site (proved)

* Modelled and proved: tensordot, transpose and reshape modelled axis by axis; the environments by induction over the sites; matrix elements of the chain opened at one site
* Outcome: In general and for the operator at sites with left bond > 1 refuted (C106_effective_refuted, C106_operator_refuted). optimize (Lanczos) and DMRG are not modelled.
* Files: PropEffh
* Theorems: `C106_environments`, `C106_matrix`, `C106_effective`, `C106_effective_real`, `C106_effective_refuted`, `C106_operator`, `C106_operator_first`, `C106_operator_refuted`

### C107 Truncations of a PEPS cut exactly the named bonds (proved)

* Modelled and proved: The slicing of the five-leg arrays is modelled row by row and place by place (ModelTrunc); a slice shortens legs and keeps the entries that remain. The amplitude is the contraction over the grid used for the earlier PEPS properties. The loops over rows and columns are solved in closed form, and the new amplitude is compared with the old contraction in which every cut bond is summed to its cap.
* Outcome: C107_fix_neighbours_refuted and C107_left_refuted: Lx is rows in one constructor and columns in the other.
* Files: PropTrunc
* Theorems: `C107_below`, `C107_above`, `C107_left`, `C107_along_row`, `C107_along_column`, `C107_lossless`, `C107_border`, `C107_fix_neighbours`, `C107_fix_neighbours_refuted`, `C107_left_refuted`

### C108 Transposing, mirroring and rotating a matrix product operator (proved)

* Modelled and proved: The methods are modelled with numpy's transpose (ModelMpo). The elements are the contraction over the ring used for C49; mirroring reindexes the sum over the bonds by turning it one place and reading it backwards. The result of trivial is given as its arrays, since the attribute L is never set.
* Outcome: C108_mirror_refuted, C108_random_refuted: what a single step or one site does not give.
* Files: PropMpo
* Theorems: `C108_transpose_ud`, `C108_matrix`, `C108_mirror`, `C108_mirror_refuted`, `C108_rotate`, `C108_random`, `C108_random_refuted`, `C108_trivial`

## Claims found false of the code

Each line is a theorem with a concrete witness, and the comment above it.

* `C03_single_site_refuted`: see C03, for two or more sites; on one site the claim is false and refuted with a witness (C03_single_site_refuted).
* `C08_scale_at_site_0_refuted`: ... and the reported norm_ is then not the norm of the state:
* `C100_isometry_refuted`: C100: the object returned is no longer a chain.
* `C101_refuted`: see C10, Es and E_k return the expectation value of op, E and E_ that of its transpose; refutations with Sy show that they differ
* `C102_rk4_refuted`: rk4 is not a Runge-Kutta step: such a step adds dt times the field when the field is constant, as euler does.
* `C103_unitary_refuted`: For an operator that is not unitary the number is not Tr rho^2.
* `C104_last_energy_refuted`: The last entry of es is not the energy of the returned state.
* `C105_deserialize_refuted`: After expand it fails on a history that mps_list reads.
* `C106_effective_refuted`: Not so in general: the Heisenberg chain of fMPO on two sites at its first site.
* `C106_operator_refuted`: Not so at the last site of two.
* `C107_fix_neighbours_refuted`: Not so in a PEPS made by fPEPS(data) with more columns than rows, for which Lx is the number of rows: it compares the row with the number of columns and raises in the last row; and it leaves a bond as it is.
* `C107_left_refuted`: The truncations below and to the left take Lx for the number of rows. In a PEPS made by random(Lx, Ly, ..) it is the number of columns: truncate_left and truncate_below raise.
* `C108_mirror_refuted`: Not so for reverse() or transpose_lr() alone: the bonds no longer fit.
* `C108_random_refuted`: So the recorded length is wrong for one site.
* `C10_E_refuted`: so "E(op,k) is the expectation of op" is false
* `C10_E_underscore_refuted`: see C10, Es and E_k return the expectation value of op, E and E_ that of its transpose; refutations with Sy show that they differ
* `C11_after_mixed_canonicalise_refuted`: the excluded calls: mixed_canonicalise(k > 0) ...
* `C11_after_partial_sweep_refuted`: ... a partial sweep after a full one ...
* `C11_gate_flags_refuted`: C11: a gate keeps the recorded orthogonality centre although the tensors are no longer orthogonal around it.
* `C13_unsorted_eigenvalues_refuted`: Without the assumption that eig returns the zero eigenvalues last, the rank cut of the backward sweep can annihilate the state.
* `C15_unstructured_shrunk_refuted`: a chain with shrunk bonds cannot be read back
* `C15_unstructured_silent_refuted`: a chain with a large bond is silently read back as another state
* `C18_order_refuted`: "The larger factor comes first" and "the smaller factor comes first" are both false.
* `C19_dimensions_refuted`: A pair of sites of different dimensions does not come back with its own dimensions.
* `C21_recorded_length_refuted`: see C21, the projected amplitudes are right; the recorded length self.L is stale, refuted with a witness and characterised for every chain.
* `C25_christoffel_refuted`: christoffel: the second identical call gives another value, on a short chain
* `C25_long_chain_refuted`: see C25, Memo transparent up to 11 sites and refuted beyond; christoffel's second call refuted.
* `C26_order_refuted`: When a site with an empty tangent space follows one with a tangent space, import fails on what extract returned.
* `C28_label_zero_refuted`: The label 0 is neither contracted nor free: the check accepts it, and the contraction then fails with ValueError in the final transposition.
* `C28_unchecked_trace_refuted`: Without the check (fMPS.py calls ncon this way) a trace over two legs of different sizes is not rejected: the sum runs over the smaller size.
* `C30_loc_3_order_refuted`: The addresses of loc_3 in the documented order of the factors are wrong.
* `C30_split_up_3_dim_refuted`: split_up_3 uses d = 2 whatever d it is given: wrong for d = 3 without an error.
* `C30_split_up_doc_refuted`: The documented result of split_up, <u,v|H|s,t> at (u, v, s, t), is wrong.
* `C32_uqr_refuted`: Rank-deficient input: the factors do not multiply to A.
* `C32_urq_tall_refuted`: A tall matrix of full column rank: urq takes the signs from the wrong diagonal and returns factors that do not multiply to A.
* `C33_requested_size_refuted`: A requested size below the size of the isometry is ignored.
* `C35_itdvp_refuted`: see C35, fTDVP's step proved; iTDVP's refuted.
* `C36_clear_refuted`: see C36, Proved for runs without clear; clear and eulerint after expand refuted.
* `C36_expand_then_eulerint_refuted`: eulerint after expand fails although both succeed separately
* `C37_other_names_refuted`: a run whose name continues that of another with an underscore disturbs it
* `C39_adjoint_refuted`: rmatvec is not the adjoint of matvec for complex tensors
* `C45_docstring_refuted`: The docstring says that {'X': v} means {'IX': v/2, 'XI': v/2}: both are the same only for v = 0.
* `C45_two_sites_refuted`: On two sites the views differ, and to_matrices is not the documented operator.
* `C47_centre_refuted`: The recorded centre of the mirror image of a PEPS built from data with sides H <> W is not the mirror image of the recorded centre: it can leave the grid.
* `C48_nonsquare_refuted`: PEPS of 2 rows and 3 columns built from data: the sum is formed but has no amplitudes.
* `C51_last_site_refuted`: see C51, Soundness and completeness for every tolerance and every absolute value satisfying the listed laws; the environment predicates are characterised for all chains and shown to ignore the last site (refutation). Broadcasting of unequal shapes is not modelled.
* `C53_nondiagonal_refuted`: With the environment of a chain that is not diagonal the gauge condition fails.
* `C53_right_refuted`: ... but not in general, even for the diagonal environments of get_envs.
* `C55_energy_refuted`: Without diagonal environments the value is wrong.
* `C62_antisymmetrise_refuted`: see C62, swap_antisymmetrise refuted as an antisymmetriser
* `C63_ferro_refuted`: It is a triple for no factor: neither Pauli nor spin matrices.
* `C66_equal_up_to_phase_refuted`: With a vanishing first entry it compares without a phase, so it misses X and iX.
* `C67_snake_refuted`: see C67, for at most one wide bond between two rows; refuted with two
* `C69_single_column_refuted`: A single column: the overlap fails although the states are fine.
* `C71_reading_order_refuted`: The state of one grid s0: the projector on the number of the block of s0 in reading order has the expectation value 0, on the number column by column the value 1.
* `C72_pairing_refuted`: ... but in general they do not.
* `C74_right_refuted`: so that E(op, 'r') is not the expectation value of op
* `C75_energy_refuted`: The state is normalised (eigenvalue one), but the energy is wrong.
* `C76_refuted`: at any other value it is not: the eigenvalue of the transfer map is 4, and the predicate denies it and accepts nothing of the kind
* `C77_call_refuted`: documented as 1-based: m(1) is claimed to be the first tensor
* `C80_test_refuted`: ... and not for the eigenvalue itself.
* `C81_norm_refuted`: Not so for a state that is not normalised: at the first site the inverse root is taken from the other end of the chain, and the directions there are not normalised.
* `C83_periods_refuted`: Cells of different length: the longer one is cut off, in sums as well as in comparisons
* `C89_constructor_refuted`: The constructor does not keep its data.
* `C89_eq_length_refuted`: A state equals every state that continues it.
* `C91_loschmidt_expand_refuted`: Not so after a change of bond dimension, although mps_list still works.
* `C91_one_state_per_time_refuted`: see C91, expm_multiply is modelled as the exponential applied to the vector; an exception in the middle is only identified, not its half-updated object; the empty list of terms is an error value
* `C92_documented_refuted`: C92: hence the documented Hamiltonian is not what anisotropic_heisenberg returns.
* `C93_AKLT_refuted`: C93: so over the complex numbers AKLT() is not the AKLT state.
* `C95_dynamics_refuted`: ... so that it is not the Hamiltonian of two copies: Sz Sz on two qubits is an example.
* `C95_transpose_refuted`: C95: so E is not the expectation value of the operator it is given, also for Hermitian ones.
* `C96_exchange_refuted`: C96: but the first part is not symmetric under the exchange of the halves of the sites and bonds: M is not the exchange of the bond halves.
* `C97_right_transfer_refuted`: C97: through two complex tensors the result is not op carried to the right, in either order of the indices; and ret_all=False does not return the transferred operator.
* `C98_rho_proj_refuted`: C98: for a complex state rho_proj(self, sites) is not the reduced density matrix; its trace can vanish.
* `C99_centre_refuted`: C99: called on an object that records an orthogonality centre, random keeps that record, although the tensors beside it are not isometries any more.
* `C99_dimension_refuted`: C99: a product state with d <> 2 does not have the physical dimension asked for.

## Other behaviour found while reading

These are facts about the source seen during modelling. Those in the model are part of the
definitions (as exceptions or as stale fields); the others are only notes.

* fMPS: the constructor with D raises AttributeError; add is wrong for one site; E and E_ measure the
  transposed operator; mixed_canonicalise records centre 0; mixed_orthogonalise at 0 loses the norm;
  partial sweeps and apply_two_site leave the flags stale; the rank cut keeps the first eigenvalues;
  post_select leaves L stale; create_structure fails for one site; random with D = 1 ignores d;
  right_transfer without ret_all returns its argument; rho_proj conjugates both layers; get_envs drops
  off-diagonal and imaginary parts; memo keys collide from 12 sites on; left_null_projector is right only
  for diagonal environments; right_null_projector multiplies by r where its root is needed;
  import_tangent_vector assumes that sites without tangent space come first and ignores surplus entries;
  extract_tangent_vector fails when all tangent spaces are empty; fTFD.local_overlap always raises
  TypeError; fTFD.symmetrise has no factor 1/2.
* fTDVP: expand followed by eulerint or rk4int fails; clear keeps Ds; the eleventh saved run fails; the
  integrators drop the final step; grids of fewer than two times fail.
* ncon: label 0 passes the check and fails later; connect_graph appends to the caller's order; an
  unchecked trace over unequal legs uses the shorter one.
* tensor: loc_3 exchanges the second and third factor; split_up exchanges the sites and needs d;
  split_up_3 is written for d = 2; partial_trace with empty keep fails; uqr and urq lose the product for
  rank-deficient input, urq has the wrong diagonal for tall input; deembed is written for 4x4;
  unitary_extension ignores sizes below the isometry.
* spin: n_body with i <= 0 is the identity; with d it uses n+1 sites; swap_antisymmetrise symmetrises;
  the ladder operators exist up to spin 3/2; U1 and U2 raise TypeError; equal_up_to_phase misses a
  vanishing first entry; spinHamiltonians is a function without result.
* Hamiltonians: from_matrix always raises TypeError; a one-letter key is stored in full under both
  two-letter keys; two sites halve the fields; to_full from strings raises AttributeError.
* fPEPS: lattices built from non-square data record Lx and Ly exchanged; recombine of a one-site fMPO
  fails; from_mps needs Lx > 1 and drops sites that do not fill a row; col_mpos ignores its argument.
* iMPS: call access is off by one; bond dimension one cannot be canonicalised or measured; the
  eigenvector predicates test the inverse eigenvalue; mvr is the transpose, not the adjoint; E with
  c = 'm', 'r', 'l' measures the transposed operator; energy uses the transposed r; get_envs lacks self;
  right_null_projector uses an undefined name; _lmixed and _rmixed change the caller's arrays.
* iTDVP: rk4 is not the classical Runge-Kutta step.
* iMPS Map: is_right_eigenvector(x, lam) and is_left_eigenvector compare x with lam E x, so they accept
  the reciprocal of the eigenvalue.
* fMPS.right_transfer (fMPS.py:825-833) exchanges the upper and lower axes at every step.
* F1 (fMPS.py:1322-1628, testing=False): the networks BAHBA, ABHBA, AAHBA and AAHAB contract the first
  pair of axes of h with the kets, so that they use the transposed operator; for m = i, j > i+1 the bra
  axis is paired with the ket axis; H is reshaped to (2,2,2,2) whatever d is; F1(j,i) is taken as the
  adjoint of F1(i,j), which assumes a Hermitian H.
* F1 and F2 use icl[i-1], which for i = 0 is the inverse root of the norm (C81_norm_refuted).
* F2_ij_mem and F2_i_mem are never filled (values go to names ending in an underscore).
* match_gauge_to changes only the data: canonical flags are kept although a bond may have grown.
* entanglement_entropy ignores its argument thresh (1e-8 is written into the code).
* vfMPS.__init__ does not keep its data, so to_fMPS of a constructed object raises AttributeError.
* fMPS.__eq__ compares over the shorter chain: a state equals every state that continues it; __call__
  returns item k+1 although its docstring promises 1-based access.
* fTDVP.py:228-246, `Trajectory.edint` fills ed_history with one vector per time point but never appends to Ds.  On a new trajectory Ds has one entry, and mps_list/mps_evs (487-506) zip the filled mps_history with Ds: they return one state, silently (C91_readback, C91_one_state_per_time_refuted).  The entry that is returned is decoded with the bond dimension of the initial state.
* fTDVP.py:553-559, `loschmidt` decodes every entry with the current bond dimension, so after expand or contract it raises (C91_loschmidt_expand_refuted); with an ed_history it returns Schmidt values instead of overlaps (545-552).
* fTDVP.py:233, 517: the local dimension 2 is hard coded in edint and ed_energies, also for chains with mps.d other than 2.
* qmb.py:8 `from spin import *` rebinds `tensor`, imported from qutip at qmb.py:3, to spin.py:127 (`reduce(kron, ops)`).  With numpy's kron the site operators are arrays, `*` is entrywise and `.full()` is missing: `anisotropic_heisenberg` loses its exchange terms and every `local_*` function raises AttributeError (C92).
* qmb.anisotropic_heisenberg_mpo uses names (sz, sm, sp, I, O) that the module does not define: NameError.  fMPO.anisotropic_heisenberg documents "J sum S+S- + conj" but uses J/2; for L <= 1 it still builds two tensors.  local_XX ignores g.
* mps_examples.py:133 AKLT() uses -sqrt(1/2) times the spin-1/2 Sz (that is -sqrt(1/8) sigma_z) for the state Sz = 0, where the AKLT tensor has -sqrt(1/3) sigma_z: neighbouring sites keep a component of total spin 2 (`C93_AKLT_refuted`), with -sqrt(1/3) sigma_z it vanishes (`C93_AKLT_fixed`).
* mps_examples.py: the docstring of comp_x exchanges i = 2 and i = 3 (`C93_comp_x_docstring`); bell(i) and comp_x(i) differ in what they do for other i (None against the last case).
* fMPS.py:2165-2168 fTFD.dA_dt: kron(eye, h) + kron(h, eye) orders the indices copy by copy while the tensors order them site by site, so that a two-site term acts between the two halves of one site and sites are never coupled (`C95_dynamics`, `C95_dynamics_refuted`); fullH is passed in the place of store_energy and has no effect.
* fMPS.py:2178, 2183 fTFD.E and Es contract the first axis of the operator with the ket: they measure the transpose, the sign of Sy is reversed (`C95_transpose_refuted`).
* fMPS.py:2132-2144 symm_asymm/get_vL: M is diag(1,..,-1,..) in the computational basis of the bond, not the exchange of its halves; vL_sym is not symmetric under the exchange that symmetry() performs (`C96_exchange_refuted`).
* fMPS.py:832 right_transfer: the labels of the two right bond indices are exchanged with respect to op, so every step transposes and later steps contract ket tensors with conjugated ones (`C97_right_transfer_refuted`); fMPS.py:833 returns Rs[0] = op when ret_all is False.
* fMPS.py:994 rho_proj: squeeze(self[i]).conj() @ other.conj() has one conjugation too many (`C98_rho_proj_refuted`); the function returns None for bond dimension above 1.
* fMPS.py:410-426 random: with D = 1 the tensors have local dimension 2 whatever d is (`C99_dimension_refuted`); an existing oc is kept (`C99_centre_refuted`).
* fMPS.py:907 apply_two_site_isometry: the second tensor of the pair stays in the chain (`C100_isometry_refuted`).
* fTDVP.py:449 ed_OTOC: comm(Wt, V) stands twice, without an adjoint, so that for a V or W that is not Hermitian the result is not the squared norm of the commutator (`C101_refuted`); dt = T[1]-T[0] is not used but makes a one-point grid an IndexError (`C101_short`).
* iTDVP.py:72 rk4: k3 is multiplied by dt although it is multiplied by dt again in lines 73 and 75, so that the step is not a Runge-Kutta step: even a constant field is not integrated exactly (`C102_rk4_refuted`).
* iTDVP.py:86-88: a step stores the state before it and eulerint/rk4int keep the last stored state: the last step is computed and thrown away (`C102_eulerint`, `C102_rk4int`).
* peps_tools.py:105-126 renyi_2_disentangler: convergence is tested when m > 1 and m starts at 0 again after every restart, so for max_iter < 3 the call never returns (`C103_never_returns`).
* peps_tools.py:73-75 renyi: one factor U U^dagger too much is in the trace; the value is Tr rho^2 only for unitary U (`C103_renyi`, `C103_unitary_refuted`).
* iOptimize.py:10-16: the energy is recorded before the step, the energy of the returned state is never in es (`C104_last_energy_refuted`).
* C105: mps_energies returns total energies with fullH=True and energies per site with fullH=False, so the two forms of one Hamiltonian give numbers that differ by the factor L. Trajectory.deserialize ignores the recorded list Ds and fails after expand.
* `effH` (projects/fMPO.py): `env_left` returns axes (MPO, ket, bra), but `mv` and `asmatrix` use the last axis as the ket: bra and ket of the right block are exchanged, so for the Heisenberg MPO the effective Hamiltonian has sp and sm exchanged on one side (C106_effective_refuted). `mv` returns axes (left, physical, right) while its argument and the matrix use (physical, left, right): `aslinearoperator()` and `asmatrix()` disagree at every site with left bond and physical dimension above one (C106_operator_refuted).
* fPEPS.py: `fPEPS(data)` records Lx = number of rows, `random(Lx, Ly)` makes Lx columns. truncate_below and truncate_left take Lx for the number of rows, fix_neighbours takes it for the number of columns, so each fails on a non-square PEPS made the other way (`C107_fix_neighbours_refuted`, `C107_left_refuted`). The truncations do not update the recorded bond dimension.
* fPEPS.py fMPO: `trivial(L)` does not set self.L, so recombine() on it raises AttributeError (not expressible in the record of the model, where L is a number); `create_structure(1, ..)` has two entries, so random(1, ..) records a length that is not the number of arrays (`C108_random_refuted`). transpose_lr or reverse alone leaves arrays whose bonds do not fit (`C108_mirror_refuted`).

## Which code is modelled

Counted by the citations in the `Model*.v` files. Functions of the package which are cited by no
definition are listed here; they are not modelled, and no theorem speaks about them. Test functions
in the package files, `__str__` and plotting code are among them.

| file | functions | not modelled |
|---|---|---|
| xmps/Hamiltonians.py | 12 | Hamiltonian.has_strings 32-33, Hamiltonian.has_matrices 36-37, Hamiltonian.__str__ 52-53, Hamiltonian.from_matrix 124-129 |
| xmps/fMPS.py | 117 | ncon 65-65, fMPS.__str__ 277-278, fMPS.random_with_energy_E 356-399, fMPS.update_properties 709-725, fMPS.projection_error 1072-1106, fMPS.should_expand 1117-1120, fMPS.dynamical_expand 1122-1159, fMPS.grow 1161-1168, fMPS.ddA_dt 1233-1251, fTFD.left_null_projector 2146-2163 |
| xmps/fPEPS.py | 94 | tuple_to_diagram 25-32, flatten 35-37, tensor_grouping_diag 71-82, tensor_grouping_lrud 85-96, tensor_isometrise_diag 99-116, tensor_isometrise_lrud 119-137, tensor_isometrise_center 140-141, transfer_tensor 144-146, rotate_peps_tensor_cc 149-150, fMPO.structure 219-220, fMPO.__str__ 222-223, fPEPS.__str__ 269-271, fPEPS.__eq__ 273-299, fPEPS.rho 301-314, fPEPS.rho_proj 316-331, fPEPS.col_mpos 366-367, fPEPS.bond_dimension 411-412, fPEPS.create_structure 475-498, fPEPS.structure 621-622, fPEPS.random 624-632, fPEPS.normalise 634-639, fPEPS.norm 641-642, fPEPS.environment 662-697, fPEPS.tm 709-712, fPEPS.E 796-797, fPEPS.iso_E 799-808, fPEPS.iso_Es 810-814, fPEPS.moses_move_right 816-870, fPEPS.moses_move_left 872-876, fPEPS.moses_move_down 878-882, fPEPS.moses_move_up 884-888, fPEPS.moses_move_oc_to 890-911, tr_svd 929-933, factors 936-940, split_tensor 943-994, all_equal 997-998, close_up_to_factor 1000-1001, test_separate_tensor 1003-1010, unsplit_tensor 1012-1013, test_split_tensor 1015-1031, test_mpo_multiplication 1033-1057, test_fPEPS_Es 1059-1092, test_fPEPS_addition 1094-1112, test_fPEPS_from_mps 1114-1122, test_overlap 1124-1131, test_isometrize 1133-1166, test_moses_move 1168-1245, test_peps_transpose 1247-1281, test_rho 1283-1290, test_E_k 1292-1311, tests 1313-1326 |
| xmps/fTDVP.py | 33 | Trajectory.odeint 186-226, Trajectory.lyapunov2 248-281, Trajectory.ts_int 410-432, Trajectory.mps_OTOC 452-485, Trajectory.von_neumann 561-564, Trajectory.renyi 566-569, Trajectory.save 581-596, Trajectory.resume 638-645, Trajectory.copy 647-648 |
| xmps/iMPS.py | 61 | Map.__init__ 39-43, TransferMatrix.__init__ 109-112, iMPS.__setitem__ 189-192, iMPS.__len__ 209-211, iMPS.__str__ 254-255, iMPS.shape 258-259, iMPS.mixed 344-348, iMPS.right_canonicalise 394-395, iMPS.create_structure 397-398, iMPS.get_envs 404-406, iMPS.Rh 585-630, iMPS.right_null_projector 649-658, iMPS.update 684-728, ivMPS.__init__ 733-741, ivMPS.random 743-756, ivMPS.transfer_matrix 758-762, ivMPS.canonicalise 764-800 |
| xmps/iOptimize.py | 1 | none |
| xmps/iTDVP.py | 6 | none |
| xmps/mps_examples.py | 18 | i_comp_z 105-118, i_cat 120-131, TestExamples.test_i_comp_z 145-151, TestExamples.test_bell_sz 153-156, TestExamples.test_bell_orthogonal 158-163, TestExamples.test_bell_norms 165-167, TestExamples.test_comp_z_orthogonal 169-174, TestExamples.test_comp_z_norms 176-178, TestExamples.test_comp_z_sz 180-183, TestExamples.test_comp_z_sx 185-187, TestExamples.test_comp_x_orthogonal 189-194, TestExamples.test_comp_x_norms 196-198, TestExamples.test_comp_x_sx 200-203, TestExamples.test_comp_x_sz 205-207 |
| xmps/ncon.py | 13 | none |
| xmps/peps_tools.py | 7 | U2 77-78 |
| xmps/qmb.py | 15 | Sp 29-30, Sm 33-34, Sx 37-38, Sy 41-42, Sz 45-46, anisotropic_heisenberg_mpo 49-62, TestHamiltonians.setUp 106-113, TestHamiltonians.test_local_anisotropic_heisenbergs 115-122 |
| xmps/spin.py | 43 | swap_rows 286-289, spinHamiltonians 319-385, nlambdas 472-475, locals 502-507 |
| xmps/svd_robust.py | 5 | _load_lapack 230-254, _set_CLAPACK_callsignatures 257-292, _get_gesvd 295-304 |
| xmps/tensor.py | 33 | eye_like 73-76, haar_unitary 83-84, tr_svd 234-236, r_eigenmatrix 255-275, l_eigenmatrix 277-297, structure 341-343, ldot 345-352, rdot 354-361, p 391-392, basis_iterator 446-447, single_basis_iterator 449-450 |
| xmps/tests.py | 7 | none |
| xmps/projects/fHam.py | 3 | heis 10-10, isin 11-11, optimise 13-27 |
| xmps/projects/fMPO.py | 17 | effH.__init__ 15-23, effH.optimize 92-95, fMPO.__init__ 99-100, fMPO.__getitem__ 102-103, fMPO.DMRG 137-229, TesteffH.setUp 232-240, TesteffH.test_matrix_linearoperator 242-246, TestfMPO.setUp 251-258 |
| xmps/projects/fPEPS.py | 7 | fPEPS.mul 62-65, fPEPS.norm 97-100 |
| xmps/projects/fTFD.py | 20 | fs 16-19, fTFD.__init__ 22-24, fTFD.__add__ 26-32, fTFD.__sub__ 34-40, fTFD.__mul__ 42-49, fTFD.__rmul__ 51-56, fTFD.__truediv__ 58-65, fTFD.__str__ 67-68, fTFD.random 70-78, fTFD.from_fMPS 80-85, fTFD.symmetry 87-91, fTFD.symm_asymm 93-97, fTFD.get_vL 99-105, fTFD.left_null_projector 107-124, fTFD.dA_dt 126-129, fTFD.E 131-139, fTFD.Es 141-145, testfTFD.setUp 148-168, testfTFD.test_symmetries 170-182, testfTFD.test_time_evolution 184-197 |
| xmps/projects/iHam.py | 4 | heis 17-17, isin 18-18, ungauge 20-29, optimise 31-77 |

The files below `profile/`, `tests/`, the notebooks and the `setup.py` files are not modelled.

## Trusted base

* The Coq kernel (8.16.1). No axiom, parameter, admitted proof, functor, module type or plugin is
  introduced; `Variable` and `Hypothesis` occur only inside sections.
* The axioms listed by `Print Assumptions`, see below.
* The reading of the Python source recorded in the citations, and of the numpy and scipy routines that
  are written out as definitions (tensordot, transpose, reshape, matmul, trace, kron, einsum patterns).
* The contracts of library routines (SVD, QR, RQ, Cholesky, inverse, null space, eigenvectors, Arnoldi,
  expm, square root, division): hypotheses of the theorems. Every contract is shown to be satisfiable
  by an instance in the examples, a table whose entries are checked before they are returned, or the
  complex numbers over the standard-library reals.
* Not modelled: floating point, dtypes, `allclose` tolerances (except in C51, where the tolerance is a
  parameter), random numbers, plotting, timing, printing, files other than as lists of numbers.

### Print Assumptions

`Print Assumptions` says "Closed under the global context" for 503 theorems and 125 examples.
Theorems that are not among them: ['C93_AKLT_refuted', 'C101_example', 'C101_nonneg']. the theorems named above under each property depend on no axiom.

The following use axioms of the standard library (classical reals), because they instantiate the
scalars by the complex numbers over Coq's reals:

* `C91_example`, `C93_AKLT_refuted`, `C65_example`, `C66_example`, `C63_example`, `C64_example`, `C101_example`, `C42_example`, `C43_example`, `C44_example_sphere`: ClassicalDedekindReals.sig_forall_dec, ClassicalDedekindReals.sig_not_dec, FunctionalExtensionality.functional_extensionality_dep
* `C101_nonneg`: ClassicalDedekindReals.sig_forall_dec, FunctionalExtensionality.functional_extensionality_dep
